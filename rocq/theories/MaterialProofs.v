(** * MaterialProofs: lemmas behind C18-C26 *)
From Verif Require Import NumR Geometry Triangle Ray Colour Samplers Material SpecGeom SpecColour SpecOptics TriangleProofs ColourProofs.
Open Scope R_scope.

Lemma dot_comm (a b : VecR) : dot a b = dot b a. Proof. dvec; vunf; ring. Qed.
Lemma dot_plus_l (a b c : VecR) : dot (plus a b) c = dot a c + dot b c. Proof. dvec; vunf; ring. Qed.
Lemma dot_minus_l (a b c : VecR) : dot (minus a b) c = dot a c - dot b c. Proof. dvec; vunf; ring. Qed.
Lemma dot_plus_r (a b c : VecR) : dot a (plus b c) = dot a b + dot a c. Proof. dvec; vunf; ring. Qed.
Lemma dot_minus_r (a b c : VecR) : dot a (minus b c) = dot a b - dot a c. Proof. dvec; vunf; ring. Qed.
Lemma dot_times_r k (a b : VecR) : dot a (times k b) = k * dot a b. Proof. dvec; vunf; ring. Qed.
Lemma minus_plus (a b : VecR) : minus a b = plus a (times (-1) b).
Proof. dvec. apply vec_ext; vunf; ring. Qed.
Ltac dots := repeat first [rewrite dot_plus_l | rewrite dot_minus_l | rewrite dot_plus_r | rewrite dot_minus_r
                          | rewrite dot_times_l | rewrite dot_times_r].

Lemma cauchy_schwarz (a b : VecR) : (dot a b) * (dot a b) <= dot a a * dot b b.
Proof.
  assert (E : dot a a * dot b b - dot a b * dot a b = dot (cross a b) (cross a b)) by (dvec; vunf; ring).
  pose proof (dot_nonneg (cross a b)). lra.
Qed.
Lemma unit_dot (a b : VecR) : unit a -> unit b -> -1 <= dot a b <= 1.
Proof. unfold unit. intros A B. pose proof (cauchy_schwarz a b) as C. rewrite A, B in C. nra. Qed.

(** *** mirror *)
Definition mirrored (v n : VecR) : VecR := minus v (times (2 * dot v n) n).
Lemma mirrored_unit v n : unit v -> unit n -> unit (mirrored v n).
Proof. unfold unit, mirrored. intros A B. dots. rewrite A, B, (dot_comm n v). ring. Qed.
Lemma mirror_value v n : unit v -> unit n -> @mirror_direction NumR v n = mirrored v n.
Proof.
  intros A B. unfold mirror_direction. cbv zeta.
  assert (E : @vsub NumR v (vscale n (fmul f2 (vdot v n))) = mirrored v n).
  { unfold mirrored. rewrite vsub_minus. f_equal. rewrite vscale_times. f_equal. change (2 / 1 * dot v n = 2 * dot v n). field. }
  rewrite E. apply normalized_of_unit, mirrored_unit; assumption.
Qed.
Lemma mirrored_dot v n : unit n -> dot (mirrored v n) n = - dot v n.
Proof. unfold unit, mirrored. intros B. dots. rewrite B. ring. Qed.
Lemma mirrored_tangent v n : unit n -> tangent (mirrored v n) n = tangent v n.
Proof.
  intros B. unfold tangent. rewrite mirrored_dot by assumption. unfold mirrored. generalize (dot v n). intros k.
  dvec. apply vec_ext; vunf; ring.
Qed.
Lemma mirrored_twice v n : unit n -> mirrored (mirrored v n) n = v.
Proof.
  intros B. unfold mirrored at 1. rewrite mirrored_dot by assumption. unfold mirrored. generalize (dot v n). intros k.
  dvec. apply vec_ext; vunf; ring.
Qed.
Lemma mirrored_span v n : in_span (mirrored v n) v n.
Proof. exists 1, (- (2 * dot v n)). unfold mirrored. generalize (dot v n); intros k. dvec. apply vec_ext; vunf; ring. Qed.

(** *** Snell *)
Lemma FMAX_ge_1 : 1 <= @FMAX NumR.
Proof. unfold FMAX. cbn [flit NumR]. unfold Rdiv; rewrite Rinv_1, Rmult_1_r. apply IZR_le. vm_compute. discriminate. Qed.

Lemma cos_and_n_value (dir : VecR) (n1 : R) (n : VecR) (ri : R) : unit dir -> unit n -> 0 < n1 -> 0 < ri ->
  let c1 := Rabs (dot dir n) in
  let n2 := beyond n1 ri in
  0 < n2 /\ 0 <= c1 <= 1 /\
  @cos_and_n NumR dir n1 n ri =
    (n1, c1, n2, if Rlt_dec n2 (n1 * sin_of c1) then None else Some (sqrt (1 - Rsqr (n1 * sin_of c1 / n2)))).
Proof.
  intros U V P1 P2 c1 n2.
  assert (Hn2 : 0 < n2) by (unfold n2, beyond; destruct (Rlt_dec _ _); lra).
  assert (Hc : 0 <= c1 <= 1).
  { unfold c1. split; [apply Rabs_pos|]. apply Rabs_le. apply unit_dot; assumption. }
  split; [assumption|]. split; [assumption|].
  unfold cos_and_n. cbv zeta. rsimp.
  replace (@vdot NumR dir n) with (dot dir n) by reflexivity. fold c1.
  replace (if Rltb (Rabs (n1 - ri)) (1 / 10000000) then 1 / 1 else ri) with n2.
  2:{ unfold n2, beyond, Rltb. destruct (Rlt_dec _ _); [field|reflexivity]. }
  assert (Es : fclamp (1 / 1 - c1 * c1) (0 / 1) (@FMAX NumR) = sin_of c1 * sin_of c1).
  { unfold sin_of. rewrite sqrt_sqrt by nra. unfold fclamp. rsimp. pose proof FMAX_ge_1 as HM.
    destruct (Rltb_spec (1 / 1 - c1 * c1) (0 / 1)); [nra|].
    destruct (Rltb_spec (@FMAX NumR) (1 / 1 - c1 * c1)); [nra|field]. }
  rewrite Es. clear Es.
  assert (Hs : 0 <= sin_of c1) by apply sqrt_pos. set (s := sin_of c1) in *. clearbody s.
  assert (Eq : n1 * n1 * (s * s) / (n2 * n2) = Rsqr (n1 * s / n2)) by (unfold Rsqr; field; lra).
  rewrite Eq.
  assert (Hq : 0 <= n1 * s / n2).
  { apply Rmult_le_pos; [nra|]. left. apply Rinv_0_lt_compat. assumption. }
  assert (Hqs : n1 * s = (n1 * s / n2) * n2) by (field; lra).
  set (q := n1 * s / n2) in *. clearbody q.
  destruct (Rltb_spec (1 / 1) (Rsqr q)) as [L|L]; destruct (Rlt_dec n2 (n1 * s)) as [L'|L']; unfold Rsqr in *.
  - reflexivity.
  - exfalso. apply L'. rewrite Hqs. assert (1 < q) by nra. nra.
  - exfalso. rewrite Hqs in L'. assert (1 < q) by nra. nra.
  - repeat f_equal. field.
Qed.

(** *** Fresnel *)
Lemma Rsqr_ratio_le1 a b : 0 <= a -> 0 <= b -> 0 < a + b -> 0 <= Rsqr ((a - b) / (a + b)) <= 1.
Proof.
  intros A B C. split; [apply Rle_0_sqr|]. unfold Rsqr.
  assert (E : 1 - (a - b) / (a + b) * ((a - b) / (a + b)) = 4 * a * b / ((a + b) * (a + b))) by (field; lra).
  assert (0 <= 4 * a * b / ((a + b) * (a + b))).
  { apply Rmult_le_pos; [nra|]. left. apply Rinv_0_lt_compat. nra. }
  lra.
Qed.
Lemma Rsqr_ratio_lt1 a b : 0 < a -> 0 < b -> Rsqr ((a - b) / (a + b)) < 1.
Proof.
  intros A B. unfold Rsqr.
  assert (E : 1 - (a - b) / (a + b) * ((a - b) / (a + b)) = 4 * a * b / ((a + b) * (a + b))) by (field; lra).
  assert (0 < 4 * a * b / ((a + b) * (a + b))) by (apply Rdiv_lt_0_compat; nra).
  lra.
Qed.
Lemma fresnel_value n1 c1 n2 c2 : 0 < n1 -> 0 < n2 -> 0 < c1 -> 0 < c2 ->
  @fresnel_reflectance NumR n1 c1 n2 c2 = fresnel n1 c1 n2 c2.
Proof.
  intros. unfold fresnel_reflectance, fresnel_tm, fresnel_te, fresnel, R_s, R_p, Rsqr. cbv zeta. rsimp.
  field. repeat split; try nra.
Qed.
Lemma mix_pos (n1 c1 n2 c2 : R) : 0 < n1 -> 0 < n2 -> 0 <= c1 -> 0 <= c2 -> 0 < c1 + c2 -> 0 < n1 * c1 + n2 * c2.
Proof.
  intros. destruct (Req_dec c1 0) as [->|]; [assert (0 < n2 * c2) by (apply Rmult_lt_0_compat; lra); lra|].
  assert (0 < n1 * c1) by (apply Rmult_lt_0_compat; lra). assert (0 <= n2 * c2) by (apply Rmult_le_pos; lra). lra.
Qed.
Lemma fresnel_range n1 c1 n2 c2 : 0 < n1 -> 0 < n2 -> 0 <= c1 -> 0 <= c2 -> 0 < c1 + c2 -> 0 <= fresnel n1 c1 n2 c2 <= 1.
Proof.
  intros P1 P2 C1 C2 C. unfold fresnel, R_s, R_p.
  pose proof (mix_pos n1 c1 n2 c2 P1 P2 C1 C2 C) as M1. pose proof (mix_pos n2 c1 n1 c2 P2 P1 C1 C2 C) as M2.
  pose proof (Rsqr_ratio_le1 (n1 * c1) (n2 * c2) ltac:(nra) ltac:(nra) M1).
  pose proof (Rsqr_ratio_le1 (n2 * c1) (n1 * c2) ltac:(nra) ltac:(nra) M2). lra.
Qed.

(** *** refraction *)
Lemma refracted (v n : VecR) (n1 n2 c2 : R) : unit v -> unit n -> dot v n <= 0 -> 0 < n1 -> 0 < n2 ->
  c2 * c2 = 1 - Rsqr (n1 * sin_of (Rabs (dot v n)) / n2) ->
  let t := @fresnel_transmission_dir NumR v n n1 (Rabs (dot v n)) n2 c2 in
  unit t /\ in_span t v n /\ dot t n = - c2 /\ tangent t n = times (n1 / n2) (tangent v n).
Proof.
  intros U V Hd P1 P2 Hc2 t.
  assert (Et : t = plus (times (n1 / n2) v) (times (n1 / n2 * (- dot v n) - c2) n)).
  { unfold t, fresnel_transmission_dir. cbv zeta. rewrite Rabs_left1 by assumption.
    rewrite vadd_plus, !vscale_times. reflexivity. }
  assert (Ev : dot v n * dot v n <= 1) by (pose proof (unit_dot v n U V); nra).
  set (k := n1 / n2) in *.
  assert (Hk : c2 * c2 = 1 - k * k * (1 - dot v n * dot v n)).
  { rewrite Hc2. replace (n1 * sin_of (Rabs (dot v n)) / n2) with (k * sin_of (Rabs (dot v n))) by (unfold k; field; lra).
    rewrite Rsqr_mult. unfold Rsqr, sin_of. rewrite sqrt_sqrt; rewrite <- Rabs_mult, Rabs_pos_eq by nra; nra. }
  clearbody t k. subst t. unfold unit in *. repeat split.
  - dots. rewrite U, V, (dot_comm n v). generalize dependent (dot v n). intros d. intros. nra.
  - eexists _, _. reflexivity.
  - dots. rewrite V. ring.
  - unfold tangent. dots. rewrite V. generalize (dot v n). intros d. dvec. apply vec_ext; vunf; ring.
Qed.

(** *** glass *)
Definition slab_R (r d : R) : R := r * (1 + (1 - 2 * r) * (d * d)) / (1 - r * r * (d * d)).
Definition slab_T (r d : R) : R := d * ((1 - r) * (1 - r)) / (1 - d * r * (d * r)).
Lemma slab_energy (r d : R) : 0 <= r < 1 -> 0 <= d <= 1 ->
  0 <= slab_R r d /\ 0 <= slab_T r d /\ slab_R r d + slab_T r d <= 1.
Proof.
  intros Hr Hd.
  assert (Hdr : 0 <= d * r < 1) by nra.
  assert (Hden : 0 < 1 - d * r * (d * r)) by nra.
  assert (Hi : 0 < / (1 - d * r * (d * r))) by (apply Rinv_0_lt_compat; assumption).
  assert (E1 : 1 - r * r * (d * d) = 1 - d * r * (d * r)) by ring.
  unfold slab_R, slab_T. rewrite E1. assert (0 <= d * d <= 1) by nra. repeat split.
  - apply Rmult_le_pos; [|lra]. apply Rmult_le_pos; nra.
  - apply Rmult_le_pos; [|lra]. apply Rmult_le_pos; nra.
  - unfold Rdiv. rewrite <- Rmult_plus_distr_r.
    apply Rmult_le_reg_r with (1 - d * r * (d * r)); [assumption|].
    rewrite Rmult_assoc, Rinv_l, Rmult_1_r, Rmult_1_l by lra.
    assert (F : 0 <= (1 - r) * (1 - r * (d * d) - d * (1 - r))).
    { apply Rmult_le_pos; [lra|]. assert (r * (d * d) <= r * d) by nra. nra. }
    nra.
Qed.
Lemma Rpowf_01 (x y : R) : 0 <= x <= 1 -> 0 < y -> 0 <= Rpowf x y <= 1.
Proof.
  intros Hx Hy. unfold Rpowf. destruct (Req_EM_T x 0); [destruct (Req_EM_T y 0); lra|].
  unfold Rpower. split; [left; apply exp_pos|].
  assert (Hl : ln x <= 0). { destruct (Req_dec x 1) as [->|]; [rewrite ln_1; lra|]. rewrite <- ln_1. left. apply ln_increasing; lra. }
  destruct (Req_dec (y * ln x) 0) as [->|]; [rewrite exp_0; lra|].
  rewrite <- exp_0. left. apply exp_increasing. nra.
Qed.

(** cosine inside the pane, and the squared amplitude coefficients of its two faces *)
Definition pane_cos (ri p : R) : R := sqrt (1 - 1 / (ri * ri) + p / ri * (p / ri)).
Definition face_e (ri p : R) : R := Rsqr ((p - ri * pane_cos ri p) / (p + ri * pane_cos ri p)).
Definition face_m (ri p : R) : R := Rsqr ((1 / p - ri / pane_cos ri p) / (1 / p + ri / pane_cos ri p)).
Lemma pane_cos_pos ri p : 1 <= ri -> 0 < p <= 1 -> 0 < pane_cos ri p <= 1.
Proof.
  intros Hr Hp. unfold pane_cos.
  assert (Hi : 0 < / ri <= 1) by (split; [apply Rinv_0_lt_compat; lra|rewrite <- Rinv_1; apply Rinv_le_contravar; lra]).
  assert (E : 1 - 1 / (ri * ri) + p / ri * (p / ri) = 1 - (/ ri * / ri) * (1 - p * p)) by (field; lra).
  rewrite E. assert (0 < / ri * / ri <= 1) by nra. assert (0 <= 1 - p * p < 1) by nra.
  split; [apply sqrt_lt_R0; nra|]. apply Rle_trans with (sqrt 1); [apply sqrt_le_1_alt; nra|rewrite sqrt_1; lra].
Qed.
Lemma faces_range ri p : 1 <= ri -> 0 < p <= 1 -> 0 <= face_e ri p < 1 /\ 0 <= face_m ri p < 1.
Proof.
  intros Hr Hp. pose proof (pane_cos_pos ri p Hr Hp) as Hc. unfold face_e, face_m. split; (split; [apply Rle_0_sqr|]).
  - apply Rsqr_ratio_lt1; [lra|nra].
  - apply Rsqr_ratio_lt1; apply Rdiv_lt_0_compat; lra.
Qed.

Definition absorb (ri p : R) (c : SpecR) : SpecR :=
  if Rlt_dec (smax c) (1 / IZR (Zpos (10 ^ 15))) then c
  else rgb (Rpowf (sr c) (1 / pane_cos ri p)) (Rpowf (sg c) (1 / pane_cos ri p)) (Rpowf (sb c) (1 / pane_cos ri p)).
Definition half_sum (f : R -> R -> R) (re rm d : R) : R := (f re d + f rm d) / 2.
Lemma absorb_range ri p c : 1 <= ri -> 0 < p <= 1 -> in_range 0 1 c -> in_range 0 1 (absorb ri p c).
Proof.
  intros Hr Hp Hc. unfold absorb. destruct (Rlt_dec _ _); [assumption|].
  pose proof (pane_cos_pos ri p Hr Hp) as H. destruct Hc as (H1 & H2 & H3).
  assert (0 < 1 / pane_cos ri p) by (apply Rdiv_lt_0_compat; lra).
  unfold in_range, rgb. cbn [sr sg sb]. rsimp. repeat split; apply Rpowf_01; assumption.
Qed.
Lemma glass_value (c : SpecR) (ri : R) (n dir : VecR) (cos1 : R) : 1 <= ri -> 0 < Rabs (dot n dir) <= 1 -> in_range 0 1 c ->
  let p := Rabs (dot n dir) in let d := absorb ri p c in let re := face_e ri p in let rm := face_m ri p in
  @glass_refl_trans NumR TrigR c ri n dir cos1 =
    (rgb (half_sum slab_R re rm (sr d)) (half_sum slab_R re rm (sg d)) (half_sum slab_R re rm (sb d)),
     if Rlt_dec (smax c) (1 / IZR (Zpos (10 ^ 15))) then BLACK
     else rgb (half_sum slab_T re rm (sr d)) (half_sum slab_T re rm (sg d)) (half_sum slab_T re rm (sb d))).
Proof.
  intros Hr Hp Hc p d re rm.
  pose proof (faces_range ri p Hr Hp) as [He Hm]. fold re rm in He, Hm.
  pose proof (absorb_range ri p c Hr Hp Hc) as Hd. fold d in Hd.
  unfold glass_refl_trans. cbv zeta.
  replace (fst (any_transmission c)) with (if Rlt_dec (smax c) (1 / IZR (Zpos (10 ^ 15))) then false else true).
  2:{ unfold any_transmission, MIN_COLOUR. cbn [fltb flit NumR]. unfold Rltb. destruct (Rlt_dec _ _); reflexivity. }
  change (@fabs NumR (vdot n dir)) with p.
  assert (Ec : fsqrt (fadd (fsub f1 (fdiv f1 (fsq ri))) (fsq (fdiv p ri))) = pane_cos ri p).
  { unfold fsq, pane_cos. rsimp. f_equal. f_equal. field. lra. }
  rewrite !Ec.
  assert (Ee : fsq (fdiv (fsub p (fmul ri (pane_cos ri p))) (fadd p (fmul ri (pane_cos ri p)))) = re) by reflexivity.
  assert (Em : fsq (fdiv (fsub (fdiv f1 p) (fdiv ri (pane_cos ri p))) (fadd (fdiv f1 p) (fdiv ri (pane_cos ri p)))) = rm).
  { unfold rm, face_m, fsq, Rsqr. rsimp. replace (1 / 1) with 1 by field. reflexivity. }
  rewrite !Ee, !Em. clear Ee Em Ec.
  replace (if (if Rlt_dec (smax c) (1 / IZR (Zpos (10 ^ 15))) then false else true) then @spowf NumR TrigR c (@fdiv NumR (@f1 NumR) (pane_cos ri p)) else c) with d.
  2:{ unfold d, absorb. destruct (Rlt_dec _ _); [reflexivity|]. unfold spowf, smap, rgb. rsimp. replace (1 / 1) with 1 by field. reflexivity. }
  clearbody d re rm. destruct Hd as (H1 & H2 & H3). dspec. cbn [sr sg sb] in *. rsimp.
  assert (A : forall r x : R, 0 <= r < 1 -> 0 <= x <= 1 -> 1 - x * r * (x * r) <> 0 /\ 1 - r * r * (x * x) <> 0).
  { intros r x Hrr Hx. assert (0 <= x * r < 1) by nra. replace (r * r * (x * x)) with (x * r * (x * r)) by ring. split; nra. }
  destruct (A re d_r He H1) as [A1 A1']. destruct (A re d_g He H2) as [A2 A2']. destruct (A re d_b He H3) as [A3 A3'].
  destruct (A rm d_r Hm H1) as [B1 B1']. destruct (A rm d_g Hm H2) as [B2 B2']. destruct (A rm d_b Hm H3) as [B3 B3'].
  unfold half_sum, slab_R, slab_T, rgb, fsq, spow2. spec_tac.
  f_equal; [|destruct (Rlt_dec _ _); cbv iota; [reflexivity|]]; f_equal; field; repeat split; assumption.
Qed.

Lemma geometric (A q : R) : Rabs q < 1 -> infinite_sum (fun k => A * q ^ k) (A / (1 - q)).
Proof.
  intros Hq eps He. destruct (Req_dec A 0) as [->|HA].
  { exists 0%nat. intros n _. replace (sum_f_R0 (fun k => 0 * q ^ k) n) with 0.
    - unfold R_dist, Rdiv. rewrite Rmult_0_l, Rminus_0_r, Rabs_R0. assumption.
    - induction n; cbn; [ring|rewrite <- IHn; ring]. }
  assert (HAp : 0 < Rabs A) by (apply Rabs_pos_lt; assumption).
  destruct (GP_infinite q Hq (eps / Rabs A)) as [M HM]; [apply Rdiv_lt_0_compat; assumption|].
  exists M. intros n Hn. specialize (HM n Hn). unfold R_dist in *.
  assert (E : sum_f_R0 (fun k => A * q ^ k) n = A * sum_f_R0 (fun k => 1 * q ^ k) n).
  { rewrite scal_sum. apply sum_eq. intros. ring. }
  rewrite E. replace (A * sum_f_R0 (fun k => 1 * q ^ k) n - A / (1 - q)) with (A * (sum_f_R0 (fun k => 1 * q ^ k) n - / (1 - q))) by (unfold Rdiv; ring).
  rewrite Rabs_mult. apply Rmult_lt_reg_r with (/ Rabs A); [apply Rinv_0_lt_compat; assumption|].
  replace (Rabs A * Rabs (sum_f_R0 (fun k => 1 * q ^ k) n - / (1 - q)) * / Rabs A) with (Rabs (sum_f_R0 (fun k => 1 * q ^ k) n - / (1 - q))) by (field; lra).
  exact HM.
Qed.
Lemma infinite_sum_ext (f g : nat -> R) l : (forall k, f k = g k) -> infinite_sum f l -> infinite_sum g l.
Proof. intros E H eps He. destruct (H eps He) as [M HM]. exists M. intros n Hn. rewrite <- (sum_eq f g n); [apply HM; assumption|intros; apply E]. Qed.
(** light bouncing inside a slab whose faces reflect r and whose crossing transmits d *)
Lemma slab_series (r d : R) : 0 <= r < 1 -> 0 <= d <= 1 ->
  infinite_sum (fun k => (1 - r) * d * (r * d) ^ (2 * k) * (1 - r)) (slab_T r d) /\
  infinite_sum (fun k => (1 - r) * (d * r * d) * (r * d) ^ (2 * k) * (1 - r)) (slab_R r d - r).
Proof.
  intros Hr Hd. assert (Hrd : 0 <= r * d < 1) by nra.
  assert (Hq : Rabs (r * d * (r * d)) < 1) by (rewrite Rabs_pos_eq; nra).
  assert (Hne : 1 - r * d * (r * d) <> 0) by nra.
  assert (P : forall k, (r * d * (r * d)) ^ k = (r * d) ^ (2 * k)).
  { intros k. rewrite pow_mult. f_equal. ring. }
  split.
  - replace (slab_T r d) with ((1 - r) * d * (1 - r) / (1 - r * d * (r * d))).
    + eapply infinite_sum_ext; [|apply geometric; assumption]. intros k. cbv beta. rewrite P. ring.
    + unfold slab_T. replace (d * r * (d * r)) with (r * d * (r * d)) by ring. field. assumption.
  - replace (slab_R r d - r) with ((1 - r) * (d * r * d) * (1 - r) / (1 - r * d * (r * d))).
    + eapply infinite_sum_ext; [|apply geometric; assumption]. intros k. cbv beta. rewrite P. ring.
    + unfold slab_R. replace (r * r * (d * d)) with (r * d * (r * d)) by ring. field. assumption.
Qed.
Lemma pane_snell ri p : 1 <= ri -> 0 < p <= 1 -> snell 1 p ri (pane_cos ri p).
Proof.
  intros Hr Hp. unfold snell, sin_of, pane_cos.
  assert (Hi : 0 < / ri <= 1) by (split; [apply Rinv_0_lt_compat; lra|rewrite <- Rinv_1; apply Rinv_le_contravar; lra]).
  assert (E : 1 - 1 / (ri * ri) + p / ri * (p / ri) = 1 - (/ ri * / ri) * (1 - p * p)) by (field; lra).
  rewrite E. assert (0 < / ri * / ri <= 1) by nra. assert (0 <= 1 - p * p < 1) by nra.
  rewrite sqrt_sqrt by nra. replace (1 - (1 - / ri * / ri * (1 - p * p))) with (Rsqr (/ ri) * (1 - p * p)) by (unfold Rsqr; ring).
  rewrite sqrt_mult by (try apply Rle_0_sqr; lra). rewrite sqrt_Rsqr by lra. field. lra.
Qed.
Lemma face_fresnel ri p : 1 <= ri -> 0 < p <= 1 ->
  face_e ri p = R_s 1 p ri (pane_cos ri p) /\ face_m ri p = R_p 1 p ri (pane_cos ri p).
Proof.
  intros Hr Hp. pose proof (pane_cos_pos ri p Hr Hp) as Hc. unfold face_e, face_m, R_s, R_p. set (c := pane_cos ri p) in *. clearbody c. split.
  - rewrite !Rmult_1_l. reflexivity.
  - unfold Rsqr. field. repeat split; nra.
Qed.

(** *** Ward *)
Lemma rough_value (a : R) : @rough NumR a = Rmax a (1 / 1000).
Proof. unfold rough, LOW_ROUGHNESS. cbn [fltb flit NumR]. unfold Rltb. destruct (Rlt_dec a (1 / 1000)); unfold Rmax; destruct (Rle_dec _ _); lra. Qed.
Lemma neg_f1 : @eq R (@fneg NumR f1) (-1).
Proof. unfold f1. rsimp. field. Qed.
Lemma ward_value (n e1 e2 : VecR) (s a b : R) (i l : VecR) : dot i n <= 0 -> 1 / 100000 < s ->
  @evaluate_ward NumR TrigR n e1 e2 s a b i l =
    (ward_bounded s (Rmax a (1 / 1000)) (Rmax b (1 / 1000)) e1 e2 n (minus l i), (1 - s) / PI).
Proof.
  intros Hi Hs. unfold evaluate_ward. cbv zeta.
  rewrite (Rltb_is_true (1 / 100000) s Hs : @fltb NumR (flit 1 100000) s = true).
  assert (E : @fltb NumR f0 (vdot i n) = false).
  { change (Rltb (0 / 1) (dot i n) = false). apply Rltb_false. lra. }
  rewrite E, !rough_value. unfold ward_bounded. rewrite vsub_minus. change (@vdot NumR) with dot. unfold fsq, f1.
  set (h := minus l i). clearbody h. cbn [fadd fsub fmul fdiv fneg flit fexp fpi NumR TrigR].
  rsimp. replace (1 / 1) with 1 by field.
  set (x := dot h n). set (y := dot h e1 / Rmax a (1 / 1000)). set (z := dot h e2 / Rmax b (1 / 1000)).
  replace (x * x * (x * x)) with (x ^ 4) by ring. replace (x * x) with (x ^ 2) by ring.
  replace (y * y) with (y ^ 2) by ring. replace (z * z) with (z ^ 2) by ring. reflexivity.
Qed.
Lemma ward_behind (n e1 e2 : VecR) (s a b : R) (i l : VecR) : 0 < dot i n -> 1 / 100000 < s ->
  @evaluate_ward NumR TrigR n e1 e2 s a b i l = (0, 0).
Proof.
  intros Hi Hs. unfold evaluate_ward. cbv zeta.
  rewrite (Rltb_is_true (1 / 100000) s Hs : @fltb NumR (flit 1 100000) s = true).
  assert (E : @fltb NumR f0 (vdot i n) = true).
  { change (Rltb (0 / 1) (dot i n) = true). apply Rltb_true. lra. }
  rewrite E. unfold f0. cbn [flit NumR]. f_equal; field.
Qed.
Lemma ward_diffuse_only (n e1 e2 : VecR) (s a b : R) (i l : VecR) : s <= 1 / 100000 ->
  @evaluate_ward NumR TrigR n e1 e2 s a b i l = (0, (1 - s) / PI).
Proof.
  intros Hs. unfold evaluate_ward. cbv zeta.
  rewrite (Rltb_is_false (1 / 100000) s Hs : @fltb NumR (flit 1 100000) s = false).
  unfold f0, f1. cbn [flit NumR fsub fdiv fpi TrigR]. f_equal; [field|f_equal; field].
Qed.
Lemma ward_bounded_nonneg s a b e1 e2 n h : 0 <= s -> 0 < a -> 0 < b -> dot h n <> 0 -> 0 <= ward_bounded s a b e1 e2 n h.
Proof.
  intros. unfold ward_bounded. apply Rmult_le_pos; [|left; apply exp_pos].
  apply Rmult_le_pos; [apply Rmult_le_pos; [assumption|apply dot_nonneg]|].
  left. apply Rinv_0_lt_compat. pose proof PI_RGT_0. assert (0 < (dot h n) ^ 4).
  { replace ((dot h n) ^ 4) with (Rsqr (dot h n) * Rsqr (dot h n)) by (unfold Rsqr; ring).
    assert (0 < Rsqr (dot h n)) by (apply Rsqr_pos_lt; assumption). nra. }
  assert (0 < PI * a * b) by (apply Rmult_lt_0_compat; [apply Rmult_lt_0_compat|]; assumption).
  apply Rmult_lt_0_compat; assumption.
Qed.

(** *** cosine-weighted directions *)
Lemma disc_value (r theta radius : R) : 0 <= r ->
  exists x y : R, @uniform_sample_horizontal_disc NumR TrigR r theta radius = (x, y) /\ x * x + y * y = radius * radius * r.
Proof.
  intros Hr. unfold uniform_sample_horizontal_disc. cbv zeta. eexists _, _. split; [reflexivity|].
  unfold f2. cbn [fmul fsqrt fsin fcos fpi flit NumR TrigR]. set (t := 2 / 1 * PI * theta). clearbody t.
  pose proof (sin2_cos2 t) as H. unfold Rsqr in H. pose proof (sqrt_sqrt r Hr) as Q. set (q := sqrt r) in *. clearbody q.
  replace (radius * q * sin t * (radius * q * sin t) + radius * q * cos t * (radius * q * cos t))
    with (radius * radius * (q * q) * (sin t * sin t + cos t * cos t)) by ring. rewrite H, Q. ring.
Qed.
Lemma clamp_id (x : R) : 0 <= x <= 1 -> @fclamp NumR x (@f0 NumR) (@f1 NumR) = x.
Proof.
  intros H. unfold fclamp. rewrite (Rltb_is_false x (0/1) ltac:(lra) : @fltb NumR x f0 = false).
  rewrite (Rltb_is_false (1/1) x ltac:(lra) : @fltb NumR f1 x = false). reflexivity.
Qed.
Lemma cosine_hemisphere (r theta : R) : 0 <= r <= 1 ->
  exists x y : R, @sample_cosine_weighted_horizontal_hemisphere NumR TrigR r theta = pt x y (sqrt (1 - r)) /\ x * x + y * y = r.
Proof.
  intros Hr. unfold sample_cosine_weighted_horizontal_hemisphere.
  destruct (disc_value r theta 1 ltac:(lra)) as (x & y & E & S). change (@f1 NumR) with (1 / 1).
  replace (1 / 1) with 1 by field. rewrite E. exists x, y. assert (S1 : x * x + y * y = r) by (rewrite S; ring). split; [|assumption].
  assert (C := clamp_id (x * x + y * y) ltac:(lra)). cbn [fadd fmul NumR].
  replace (@f1 NumR) with 1 in C by (unfold f1; cbn [flit NumR]; field). rewrite C, S1. reflexivity.
Qed.
Lemma local_world (e1 e2 n c : VecR) (x y z : R) :
  @local_to_world NumR e1 e2 n c x y z = plus c (plus (times x e1) (plus (times y e2) (times z n))).
Proof. dvec. unfold local_to_world. apply vec_ext; vunf; ring. Qed.
Lemma frame_combo (e1 e2 n : VecR) (x y z : R) : frame e1 e2 n ->
  let v := plus (times x e1) (plus (times y e2) (times z n)) in dot v v = x * x + y * y + z * z /\ dot n v = z.
Proof.
  intros (A & B & C & D & E & F) v. unfold v, unit in *. dots.
  rewrite A, B, C, (dot_comm e2 e1), (dot_comm n e1), (dot_comm n e2), D, E, F. split; ring.
Qed.
Lemma normalized_neg (k : R) (n : VecR) : unit n -> k < 0 -> vnormalized (times k n) = times (-1) n.
Proof.
  intros U Hk. assert (Nn : norm n = 1) by (unfold norm; rewrite U; apply sqrt_1).
  assert (Hz : times k n <> pt 0 0 0).
  { intros E. assert (X : norm (times k n) = 0) by (apply norm_zero; assumption). rewrite norm_scale, Nn, Rabs_left in X by assumption. lra. }
  rewrite normalized_times by assumption. rewrite norm_scale, Nn, Rabs_left, Rmult_1_r by assumption.
  dvec. apply vec_ext; vunf; field; lra.
Qed.

(** every direction proposed by the specular branch is in the plane of the incident direction and the normal *)
Lemma ward_direction_span (n e1 e2 : VecR) (a b : R) (l : VecR) (xi1 xi2 : R) :
  exists k : R, @ward_direction NumR TrigR n e1 e2 a b l xi1 xi2 = vnormalized (plus l (times k n)).
Proof. unfold ward_direction. cbv zeta. rewrite vadd_plus, vscale_times. eexists. reflexivity. Qed.

Lemma ward_direction_isotropic (n e1 e2 : VecR) (a xi1 xi2 : R) (l : VecR) : frame e1 e2 n -> 0 < a ->
  1 / 1000000000 <= xi2 < 1 ->
  let d := a * sqrt (- ln xi2) in let phi := 2 * PI * xi1 in
  @ward_direction NumR TrigR n e1 e2 a a l xi1 xi2 =
  vnormalized (plus l (times (- 2 * (dot n l + d * cos phi * dot e1 l + d * sin phi * dot e2 l) / (1 + d * d)) n)).
Proof.
  intros Hf Ha Hx d phi. unfold ward_direction. cbv zeta.
  rewrite (Rltb_is_false xi2 (1 / 1000000000) (proj1 Hx) : @fltb NumR xi2 (flit 1 1000000000) = false).
  unfold fsq, f1, f2. rewrite ?vadd_plus, ?vscale_times, !vdot_dot.
  cbn [fadd fsub fmul fdiv fneg fsqrt flit fexp fln fsin fcos fpi NumR TrigR].
  replace (2 / 1 * PI * xi1) with phi by (unfold phi; field).
  pose proof (sin2_cos2 phi) as Q. unfold Rsqr in Q.
  assert (E1 : sqrt (cos phi * a * (cos phi * a) + sin phi * a * (sin phi * a)) = a).
  { replace (cos phi * a * (cos phi * a) + sin phi * a * (sin phi * a)) with (a * a * (sin phi * sin phi + cos phi * cos phi)) by ring.
    rewrite Q, Rmult_1_r. apply sqrt_square. lra. }
  rewrite E1. replace (cos phi * a * (1 / 1 / a)) with (cos phi) by (field; lra).
  replace (sin phi * a * (1 / 1 / a)) with (sin phi) by (field; lra).
  assert (Hl : 0 < - ln xi2). { assert (ln xi2 < ln 1) by (apply ln_increasing; lra). rewrite ln_1 in H. lra. }
  assert (E2 : - ln xi2 / (cos phi / a * (cos phi / a) + sin phi / a * (sin phi / a)) = a * a * - ln xi2).
  { replace (cos phi / a * (cos phi / a) + sin phi / a * (sin phi / a)) with (/ (a * a) * (sin phi * sin phi + cos phi * cos phi)) by (field; lra).
    rewrite Q. field. lra. }
  rewrite E2, sqrt_mult by nra. rewrite sqrt_square by lra. fold d.
  f_equal. f_equal. f_equal. dots. assert (0 <= d * d) by nra. field. lra.
Qed.
