(** * C26: importance weights of the glossy lobe (real arithmetic) *)
From Verif Require Import NumR Geometry Triangle Colour Ray Material SpecGeom SpecOptics SpecColour TriangleProofs MaterialProofs P_Material.
Open Scope R_scope.

Lemma bessel (e1 e2 n l : VecR) : frame e1 e2 n -> unit l -> dot n l * dot n l + dot e1 l * dot e1 l + dot e2 l * dot e2 l <= 1.
Proof.
  intros (A & B & C & D & F1 & F2) U. unfold unit in *.
  assert (EX : forall x y z, dot (minus l (plus (times x e1) (plus (times y e2) (times z n)))) (minus l (plus (times x e1) (plus (times y e2) (times z n)))) =
    dot l l + x * x * dot e1 e1 + y * y * dot e2 e2 + z * z * dot n n - 2 * x * dot e1 l - 2 * y * dot e2 l - 2 * z * dot n l
     + 2 * x * y * dot e1 e2 + 2 * x * z * dot e1 n + 2 * y * z * dot e2 n) by (intros; dvec; vunf; ring).
  specialize (EX (dot e1 l) (dot e2 l) (dot n l)). set (w := minus l _) in EX. assert (K : 0 <= dot w w) by (clearbody w; clear; dvec; vunf; nra). rewrite EX in K. clear EX w.
  set (x := dot e1 l) in *. set (y := dot e2 l) in *. set (z := dot n l) in *. clearbody x y z.
  rewrite ?(dot_comm n e1), ?(dot_comm n e2) in *. rewrite ?A, ?B, ?C, ?D, ?F1, ?F2, U in K. nra.
Qed.

Lemma schwarz (h n : VecR) : dot h n * dot h n <= dot h h * dot n n.
Proof.
  replace (dot h h * dot n n) with (dot h n * dot h n + dot (cross h n) (cross h n)) by (dvec; vunf; ring).
  assert (0 <= dot (cross h n) (cross h n)) by (generalize (cross h n); clear; intros w; dvec; vunf; nra). lra.
Qed.

(** the sign of the weight: a half vector tilted towards the light by more than d times its cosine sends the light deeper below the
    surface than it came from above *)
Lemma deeper (n l : VecR) (d t : R) : unit n -> unit l -> 0 < dot n l < 1 -> 0 < d -> d * dot n l < t ->
  let w := plus l (times (- 2 * (dot n l + d * t) / (1 + d * d)) n) in
  unit (vnormalized w) /\ dot (vnormalized w) n < - dot n l.
Proof.
  intros Un Ul Hln Hd Ht w. set (q := - (dot n l + - 2 * (dot n l + d * t) / (1 + d * d))).
  assert (Hq : dot n l < q).
  { unfold q. assert (Z : - 2 * (dot n l + d * t) / (1 + d * d) < - 2 * dot n l); [|lra].
    apply Rmult_lt_reg_r with (1 + d * d); [nra|]. replace (-2 * (dot n l + d * t) / (1 + d * d) * (1 + d * d)) with (-2 * (dot n l + d * t)) by (field; nra). nra. }
  assert (Wn : dot w n = - q).
  { unfold w, q. set (k := _ / _). clearbody k. unfold unit in Un. replace (dot (plus l (times k n)) n) with (dot n l + k * dot n n) by (dvec; vunf; ring). rewrite Un. ring. }
  assert (WW : dot w w = 1 - dot n l * dot n l + q * q).
  { unfold w, q. set (k := _ / _). clearbody k. unfold unit in *. replace (dot (plus l (times k n)) (plus l (times k n))) with (dot l l + 2 * k * dot n l + k * k * dot n n) by (dvec; vunf; ring).
    rewrite Un, Ul. ring. }
  clearbody w q. set (c := dot n l) in *. clearbody c.
  assert (Hw : w <> pt 0 0 0). { intros ->. assert (dot (pt 0 0 0) (pt 0 0 0) = 0) by (vunf; ring). nra. }
  split; [apply normalized_unit; exact Hw|]. rewrite normalized_times by exact Hw. rewrite dot_times_l, Wn.
  pose proof (norm_pos w Hw) as Np. assert (NN : norm w * norm w = 1 - c * c + q * q) by (unfold norm; rewrite sqrt_sqrt; nra).
  set (N := norm w) in *. clearbody N. 
  apply Rmult_lt_reg_r with N; [exact Np|]. replace (/ N * - q * N) with (- q) by (field; lra).
  assert (c * N < q); [|lra]. apply Rnot_le_lt. intros HH. assert (q * q <= c * N * (c * N)) by (apply Rmult_le_compat; lra).
  replace (c * N * (c * N)) with (c * c * (N * N)) in H by ring. rewrite NN in H.
  assert (0 < (q - c) * (q + c) * ((1 - c) * (1 + c))) by (apply Rmult_lt_0_compat; apply Rmult_lt_0_compat; lra). change R in q. change R in c. nra.
Qed.

(** The direction the specular branch proposes can lie deeper below the surface than the incoming light was above it.  Then the
    weight 2 / (1 + v.n / l.n) that is meant to divide the bsdf is NEGATIVE, while the bsdf itself is positive.
    For every glossy material, frame, incoming direction and draws for which the half vector is tilted towards
    the incoming light by more than d = roughness * sqrt(-ln xi2) times its cosine. *)
Theorem C26_negative_weight_refuted : forall (s rough : R) (n e1 e2 p : VecR) (ray : RayTR) prob disc (xi1 xi2 : R) rest,
  frame e1 e2 n -> prob < s -> 1 / 100000 < s <= 1 -> 1 / 1000000000 <= xi2 < 1 ->
  unit (dir_of ray) -> dot (dir_of ray) n < 0 ->
  (let l := times (-1) (dir_of ray) in let d := Rmax rough (1 / 1000) * sqrt (- ln xi2) in let phi := 2 * PI * xi1 in
   d * dot n l < cos phi * dot e1 l + sin phi * dot e2 l) ->
  exists direct diffuse weight ray', sample_ward n e1 e2 p s rough rough ray (mkWD prob ((xi1, xi2) :: rest) disc) = Ret (direct, diffuse, weight, ray') /\
    0 < direct /\ 0 <= diffuse /\ weight < 0 /\ unit (dir_of ray') /\ dot (dir_of ray') n < dot (dir_of ray) n /\
    start_of ray' = plus p (times (1 / 100000) n).
Proof.
  intros s rough n e1 e2 p ray prob disc xi1 xi2 rest Hf Hp Hs Hx HU HD Ht.
  assert (Un : unit n) by apply Hf. set (l := times (-1) (dir_of ray)) in *. set (a := Rmax rough (1 / 1000)) in *.
  assert (Ha : 0 < a) by (unfold a; apply Rlt_le_trans with (1 / 1000); [lra|apply Rmax_r]).
  assert (Ul : unit l). { unfold l, unit in *. destruct (dir_of ray). vunf. lra. }
  assert (Dl : dot n l = - dot (dir_of ray) n) by (unfold l; destruct (dir_of ray); dvec; vunf; ring).
  cbv zeta in Ht. set (d := a * sqrt (- ln xi2)) in *. set (phi := 2 * PI * xi1) in *. set (t := cos phi * dot e1 l + sin phi * dot e2 l) in *.
  assert (Hd : 0 < d).
  { unfold d. apply Rmult_lt_0_compat; [exact Ha|]. apply sqrt_lt_R0. assert (ln xi2 < ln 1) by (apply ln_increasing; lra). rewrite ln_1 in *. lra. }
  assert (Hl1 : 0 < dot n l < 1).
  { split; [lra|]. apply Rnot_le_lt. intros H1. pose proof (bessel e1 e2 n l Hf Ul) as HB.
    assert (dot e1 l = 0) by nra. assert (dot e2 l = 0) by nra. unfold t in Ht. rewrite H, H0 in Ht. nra. }
  destruct (deeper n l d t Un Ul Hl1 Hd Ht) as [V1 V2].
  assert (Ev : @ward_direction NumR TrigR n e1 e2 a a l xi1 xi2 = vnormalized (plus l (times (- 2 * (dot n l + d * t) / (1 + d * d)) n))).
  { rewrite ward_direction_isotropic by (assumption || lra). cbv zeta. fold d phi. do 3 f_equal. unfold t. unfold Rdiv. ring. }
  set (v := vnormalized _) in V1, V2, Ev. clearbody v.
  unfold sample_ward. cbv zeta. cbn [wd_prob wd_pairs]. rewrite (Rltb_is_true prob s Hp : @fltb NumR prob s = true).
  set (r0 := set_ray3d ray _ _). assert (D0 : direction (r_geometry r0) = dir_of ray) by reflexivity.
  assert (O0 : origin (r_geometry r0) = plus p (times (1 / 100000) n)) by (change (vadd p (vscale n SHIFT) = plus p (times (1 / 100000) n)); rewrite vadd_plus, vscale_times; reflexivity). clearbody r0.
  cbn [ward_loop]. rewrite !D0. rewrite !rough_value. fold a. rewrite neg_f1, !vscale_times. fold l. rewrite !Ev.
  change (@vdot NumR l n) with (dot l n). change (@vdot NumR v n) with (dot v n). rewrite (dot_comm l n).
  rewrite (Rltb_is_true (0 / 1) (dot n l) ltac:(lra) : @fltb NumR f0 (dot n l) = true), Bool.orb_true_r.
  rewrite ward_value by lra. 
  set (w := ward_bounded _ _ _ _ _ _ _).
  assert (Hw : 0 < w).
  { unfold w, ward_bounded. set (h := minus (times (-1) v) (dir_of ray)).
    assert (Hn : 0 < dot h n). { replace (dot h n) with (dot n l - dot v n) by (unfold h, l; destruct (dir_of ray); dvec; vunf; ring). lra. }
    assert (Hh : 0 < dot h h). { assert (dot h n * dot h n <= dot h h * dot n n) by (apply schwarz). unfold unit in Un. rewrite Un in H. nra. }
    assert (Hb : 0 < Rmax a (1 / 1000)) by (apply Rlt_le_trans with (1 / 1000); [lra|apply Rmax_r]). pose proof PI_RGT_0.
    apply Rmult_lt_0_compat; [|apply exp_pos]. apply Rdiv_lt_0_compat; [nra|]. apply Rmult_lt_0_compat; [|apply pow_lt; exact Hn].
    apply Rmult_lt_0_compat; [|exact Hb]. apply Rmult_lt_0_compat; [lra|exact Hb]. }
  clearbody w. rewrite (proj2 (Reqb_true w w) eq_refl : @feqb NumR w w = true). cbn [negb].
  eexists _, _, _, _. split; [reflexivity|]. split; [exact Hw|]. split.
  { apply Rmult_le_pos; [lra|]. left. apply Rinv_0_lt_compat, PI_RGT_0. }
  split. { change (2 / 1 / (1 / 1 + dot v n / dot n l) < 0). set (c := dot n l) in *. set (y := dot v n) in *. clearbody c y.
    assert (1 / 1 + y / c < 0). { apply Rmult_lt_reg_r with c; [lra|]. replace ((1 / 1 + y / c) * c) with (c + y) by (field; lra). lra. }
    unfold Rdiv at 1. assert (/ (1 / 1 + y / c) < 0) by (apply Rinv_lt_0_compat; exact H). lra. }
  split; [exact V1|]. split; [change (dot v n < dot (dir_of ray) n); lra|exact O0].
Qed.
Print Assumptions C26_negative_weight_refuted.
Definition slope : VecR := pt (3/5) 0 (-4/5).
Lemma slope_unit : unit slope. Proof. unfold unit, slope. vunf. field. Qed.
Lemma half_draw : 0 < sqrt (- ln (1/2)) < 1.
Proof.
  assert (H : 0 < - ln (1/2) < 1).
  { replace (1/2) with (/ 2) by field. rewrite ln_Rinv by lra. rewrite Ropp_involutive. split; [rewrite <- ln_1; apply ln_increasing; lra|].
    rewrite <- (ln_exp 1). apply ln_increasing; [lra|]. pose proof (exp_ineq1 1 ltac:(lra)). lra. }
  split; [apply sqrt_lt_R0; lra|]. assert (Q : sqrt (- ln (1/2)) < sqrt 1) by (apply sqrt_lt_1_alt; lra). rewrite sqrt_1 in Q. exact Q.
Qed.
Lemma slope_tilt (e1 e2 n : VecR) : e1 = pt 1 0 0 -> n = pt 0 0 1 ->
  let l := times (-1) slope in let d := Rmax (1/2) (1 / 1000) * sqrt (- ln (1/2)) in let phi := 2 * PI * (1/2) in
  d * dot n l < cos phi * dot e1 l + sin phi * dot e2 l.
Proof.
  intros -> -> l d phi. unfold phi. replace (2 * PI * (1/2)) with PI by field. rewrite cos_PI, sin_PI. pose proof half_draw as HH. set (q := sqrt _) in *. clearbody q.
  unfold d. rewrite Rmax_left by lra. unfold l, slope. destruct e2 as [a b c]. change R in a. change R in b. change R in c. vunf. cbn [vx vy vz]. nra.
Qed.
Example C26_negative_weight_hyp : frame (pt 1 0 0) (pt 0 1 0) up /\ unit slope /\ dot slope up < 0 /\
  (let l := times (-1) slope in let d := Rmax (1/2) (1 / 1000) * sqrt (- ln (1/2)) in let phi := 2 * PI * (1/2) in
   d * dot up l < cos phi * dot (pt 1 0 0) l + sin phi * dot (pt 0 1 0) l).
Proof.
  split; [unfold frame, unit, up; vunf; repeat split; ring|]. split; [exact slope_unit|]. split; [unfold slope, up; vunf; lra|].
  apply slope_tilt; reflexivity.
Qed.
