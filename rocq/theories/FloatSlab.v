(** * FloatSlab: the usual slab test between a ray and a box, in binary64, meets what is asked of the external box test *)
From Coq Require Import ZArith SpecFloat Reals Lra Lia Psatz.
From Flocq Require Import Core BinarySingleNaN Relative.
From Verif Require Import Num NumR NumSF SFBridge FloatOps FloatRound FloatError Geometry Triangle SpecGeom TriangleProofs
  Ray Bvh BvhExamples BvhFloat P_Float P_FloatHit FloatBoxes.
#[local] Existing Instance Hprec.
#[local] Existing Instance Hmax.
#[local] Existing Instance valid64.
Open Scope R_scope.

(** the entry and exit parameters along one axis, with the precomputed inverse of the direction *)
Definition slab_axis (lo hi o inv : @F NumSF) : @F NumSF * @F NumSF :=
  let t0 := @fmul NumSF (@fsub NumSF lo o) inv in let t1 := @fmul NumSF (@fsub NumSF hi o) inv in
  if @fltb NumSF t0 t1 then (t0, t1) else (t1, t0).
Definition slab64 (b : BoxF) (ray : RayF) (inv : VecF) : bool :=
  let '(nx, fx) := slab_axis (vx (bmin b)) (vx (bmax b)) (vx (origin ray)) (vx inv) in
  let '(ny, fy) := slab_axis (vy (bmin b)) (vy (bmax b)) (vy (origin ray)) (vy inv) in
  let '(nz, fz) := slab_axis (vz (bmin b)) (vz (bmax b)) (vz (origin ray)) (vz inv) in
  let n := @fmaxb NumSF (@fmaxb NumSF nx ny) nz in let f := @fminb NumSF (@fminb NumSF fx fy) fz in
  andb (@fleb NumSF n f) (@fltb NumSF f0 f).
Definition slab_ext : @Ext NumSF := {|
  surface_area := @surface_area NumSF ext64; max_extent := @max_extent NumSF ext64;
  bbox_hit := slab64; sort_by := @sort_by NumSF ext64; select_by := @select_by NumSF ext64 |}.
(** no component of the direction is zero (or nearly so) *)
Definition oblique (ray : RayF) : Prop :=
  bpow radix2 (-100) <= Rabs (val (vx (direction ray))) /\ bpow radix2 (-100) <= Rabs (val (vy (direction ray))) /\ bpow radix2 (-100) <= Rabs (val (vz (direction ray))).

Lemma f1_float : val (@f1 NumSF) = 1 /\ finite_upto 1 (@f1 NumSF).
Proof.
  assert (E : (@f1 NumSF : spec_float) = sf_ofZ 1) by (vm_compute; reflexivity). rewrite E. apply small_int; [lia|rewrite Rabs_R1; lra].
Qed.
Lemma f0_float : val (@f0 NumSF) = 0 /\ finite_upto 1 (@f0 NumSF).
Proof.
  assert (E : (@f0 NumSF : spec_float) = sf_ofZ 0) by (vm_compute; reflexivity). rewrite E. apply small_int; [lia|rewrite Rabs_R0; lra].
Qed.
Notation TOP := (bpow radix2 200).
Lemma slab_value L (lo o d : @F NumSF) : 1 <= L <= 1024 -> finite_upto L lo -> finite_upto L o -> finite_upto 2 d -> bpow radix2 (-100) <= Rabs (val d) ->
  let c := @fmul NumSF (@fsub NumSF lo o) (@fdiv NumSF f1 d) in let q := (val lo - val o) / val d in
  finite_upto TOP c /\ Rabs (val c - q) <= 301 / 100 * ulp1 * Rabs q + ulp1 / 1000000.
Proof.
  intros HL FL FO FD HD c q. pose proof ulp1_pos as U0. assert (U1 : ulp1 <= 1 / 4000000000000000) by (rewrite ulp1_val; lra).
  destruct f1_float as [V1 F1]. pose proof (bpow_gt_0 radix2 (-100)) as P0.
  assert (D0 : val d <> 0) by (intros Q; rewrite Q, Rabs_R0 in HD; lra).
  assert (D1 : 0 < Rabs (val d)) by (apply Rabs_pos_lt; exact D0). assert (D2 : Rabs (val d) <= 2) by apply FD.
  assert (DI : / 2 <= / Rabs (val d) <= bpow radix2 100).
  { split; [apply Rinv_le_contravar; lra|]. rewrite <- (Rinv_inv (bpow radix2 100)), <- bpow_opp. apply Rinv_le_contravar; [apply bpow_gt_0|exact HD]. }
  assert (I0 : Rabs (val (@f1 NumSF) / val d) <= bpow radix2 100) by (rewrite V1; unfold Rdiv; rewrite Rmult_1_l, Rabs_inv; lra).
  destruct (div_val 100 ltac:(lia) _ _ _ _ F1 FD D0 I0) as [VI FI]. rewrite V1 in VI. set (i := @fdiv NumSF f1 d) in *.
  assert (X0 : Rabs (val lo - val o) <= 2048). { unfold Rminus. refine (Rle_trans _ _ _ (Rabs_triang _ _) _). rewrite Rabs_Ropp. destruct FL as (_ & _ & FL), FO as (_ & _ & FO). lra. }
  destruct (sub_val 11 ltac:(lia) _ _ _ FL FO ltac:(change (bpow radix2 11) with 2048; exact X0)) as [VX FX]. set (a := @fsub NumSF lo o) in *.
  assert (P1 : Rabs (val a * val i) <= bpow radix2 111).
  { replace (bpow radix2 111) with (bpow radix2 11 * bpow radix2 100) by (rewrite <- bpow_plus; reflexivity). rewrite Rabs_mult. apply Rmult_le_compat; try apply Rabs_pos; [apply FX|apply FI]. }
  destruct (mul_val 111 ltac:(lia) _ _ _ _ FX FI P1) as [VC FC]. fold c in VC, FC.
  split; [apply (finite_weaken _ _ _ FC), bpow_le; lia|].
  pose proof (rnd_abs (val lo - val o)) as RX. rewrite <- VX in RX. pose proof (rnd_abs (val a * val i)) as RC. rewrite <- VC in RC.
  assert (RI : Rabs (val i - 1 / val d) <= ulp1 * Rabs (1 / val d)).
  { rewrite VI. apply rnd_rel. apply Rle_trans with (bpow radix2 (-1)); [apply bpow_le; lia|]. change (bpow radix2 (-1)) with (/ 2). unfold Rdiv. rewrite Rmult_1_l, Rabs_inv. lra. }
  set (x := val lo - val o) in *. set (A := val a) in *. set (I := val i) in *. set (C := val c) in *. set (D := val d) in *. 
  assert (ED : 1 / D = / D) by (unfold Rdiv; ring). rewrite ED in RI. rewrite Rabs_inv in RI.
  assert (Q : q = x * / D) by reflexivity. assert (QA : Rabs q = Rabs x * / Rabs D) by (rewrite Q, Rabs_mult, Rabs_inv; reflexivity).
  set (eta := bpow radix2 (-1075)) in *. assert (E0 : 0 < eta) by apply bpow_gt_0.
  assert (ET : eta * bpow radix2 100 <= ulp1 / 100000000).
  { unfold eta, ulp1. rewrite <- bpow_plus. apply Rle_trans with (bpow radix2 (-53 + -30)); [apply bpow_le; lia|]. rewrite bpow_plus. change (bpow radix2 (-30)) with (/ 1073741824). pose proof (bpow_gt_0 radix2 (-53)). lra. }
  set (J := / Rabs D) in *.
  assert (EJ : eta * J <= ulp1 / 100000000) by (refine (Rle_trans _ _ _ _ ET); apply Rmult_le_compat_l; lra).
  assert (EE : eta <= ulp1 / 50000000) by (assert (eta * (/ 2) <= eta * J) by (apply Rmult_le_compat_l; lra); lra).
  assert (IB : Rabs I <= (1 + ulp1) * J).
  { replace I with (/ D + (I - / D)) by ring. refine (Rle_trans _ _ _ (Rabs_triang _ _) _). rewrite Rabs_inv. fold J. lra. }
  assert (PQ : Rabs (A * I - q) <= 2001 / 1000 * ulp1 * Rabs q + ulp1 / 50000000).
  { replace (A * I - q) with ((A - x) * I + x * (I - / D)) by (rewrite Q; ring). refine (Rle_trans _ _ _ (Rabs_triang _ _) _). rewrite (Rabs_mult (A - x) I), (Rabs_mult x (I - / D)), QA.
    assert (T1 : Rabs (A - x) * Rabs I <= (ulp1 * Rabs x + eta) * ((1 + ulp1) * J)) by (apply Rmult_le_compat; try apply Rabs_pos; assumption).
    assert (T2 : Rabs x * Rabs (I - / D) <= Rabs x * (ulp1 * J)) by (apply Rmult_le_compat_l; [apply Rabs_pos|exact RI]).
    assert (T3 : 0 <= Rabs x * J) by (apply Rmult_le_pos; [apply Rabs_pos|lra]).
    assert (T4 : ulp1 * (ulp1 * (Rabs x * J)) <= 1 / 1000 * (ulp1 * (Rabs x * J))) by (apply Rmult_le_compat_r; [apply Rmult_le_pos; lra|lra]).
    assert (T5 : ulp1 * (eta * J) <= 1 * (eta * J)) by (apply Rmult_le_compat_r; [apply Rmult_le_pos; lra|lra]). lra. }
  replace (C - q) with ((C - A * I) + (A * I - q)) by ring. refine (Rle_trans _ _ _ (Rabs_triang _ _) _).
  assert (PB : Rabs (A * I) <= Rabs q + (2001 / 1000 * ulp1 * Rabs q + ulp1 / 50000000)).
  { replace (A * I) with (q + (A * I - q)) by ring. refine (Rle_trans _ _ _ (Rabs_triang _ _) _). lra. }
  pose proof (Rabs_pos q) as Q0.
  assert (S1 : ulp1 * Rabs (A * I) <= ulp1 * (Rabs q + (2001 / 1000 * ulp1 * Rabs q + ulp1 / 50000000))) by (apply Rmult_le_compat_l; lra).
  assert (S2 : ulp1 * (2001 / 1000 * ulp1 * Rabs q) <= 1 / 1000 * (ulp1 * Rabs q)).
  { replace (ulp1 * (2001 / 1000 * ulp1 * Rabs q)) with ((2001 / 1000 * ulp1) * (ulp1 * Rabs q)) by ring. apply Rmult_le_compat_r; [apply Rmult_le_pos; lra|lra]. }
  assert (S3 : ulp1 * (ulp1 / 50000000) <= ulp1 / 50000000) by nra. assert (0 <= ulp1 * Rabs q) by (apply Rmult_le_pos; lra). lra.
Qed.

(** one axis: the interval found contains the parameter s up to rounding; strictly, if the point is clear of the two planes *)
Lemma slab_axis_spec L (lo hi o d : @F NumSF) s m : 1 <= L <= 1024 -> finite_upto L lo -> finite_upto L hi -> finite_upto L o -> finite_upto 2 d ->
  Rabs (val d) <= 1001 / 1000 -> bpow radix2 (-100) <= Rabs (val d) -> 1 / 100000 < s -> s <= 4 * L -> (m = 0 \/ m = L / 2 ^ 47) ->
  val lo + m <= val o + s * val d <= val hi - m ->
  let r := slab_axis lo hi o (@fdiv NumSF f1 d) in
  finite_upto TOP (fst r) /\ finite_upto TOP (snd r) /\ val (fst r) <= val (snd r) /\
  (m = 0 -> val (fst r) <= s + 13 * ulp1 * L /\ s - 13 * ulp1 * L <= val (snd r)) /\
  (m <> 0 -> val (fst r) <= s - 13 * ulp1 * L /\ s + 13 * ulp1 * L <= val (snd r)).
Proof.
  intros HL FL FH FO FD HD HD' HS HS' HM HI r. pose proof ulp1_pos as U0. assert (U1 : ulp1 <= 1 / 4000000000000000) by (rewrite ulp1_val; lra).
  destruct (slab_value L lo o d HL FL FO FD HD') as [F0 E0]. destruct (slab_value L hi o d HL FH FO FD HD') as [F1 E1].
  set (c0 := @fmul NumSF (@fsub NumSF lo o) (@fdiv NumSF f1 d)) in *. set (c1 := @fmul NumSF (@fsub NumSF hi o) (@fdiv NumSF f1 d)) in *.
  set (q0 := (val lo - val o) / val d) in *. set (q1 := (val hi - val o) / val d) in *.
  pose proof (bpow_gt_0 radix2 (-100)) as P0. assert (D0 : val d <> 0) by (intros Q; rewrite Q, Rabs_R0 in HD'; lra).
  assert (D1 : 0 < Rabs (val d)) by (apply Rabs_pos_lt; exact D0).
  assert (M0 : 0 <= m) by (destruct HM as [->| ->]; [lra|apply Rlt_le, Rdiv_lt_0_compat; lra]).
  (* the margin in units of the parameter *)
  set (k := m / (1001 / 1000)). assert (K0 : 0 <= k) by (unfold k, Rdiv; apply Rmult_le_pos; lra).
  assert (EK : k * Rabs (val d) <= m). { apply Rle_trans with (k * (1001 / 1000)); [apply Rmult_le_compat_l; lra|unfold k; lra]. }
  assert (QQ : exists n f, (Rmin q0 q1 = n /\ Rmax q0 q1 = f) /\ n <= s - k /\ s + k <= f).
  { exists (Rmin q0 q1), (Rmax q0 q1). split; [auto|].
    destruct (Rle_or_lt 0 (val d)) as [S|S].
    - rewrite Rabs_pos_eq in EK by lra. assert (A : q0 <= s - k).
      { apply (Rmult_le_reg_r (val d)); [lra|]. unfold q0. replace ((val lo - val o) / val d * val d) with (val lo - val o) by (field; lra). lra. }
      assert (B : s + k <= q1). { apply (Rmult_le_reg_r (val d)); [lra|]. unfold q1. replace ((val hi - val o) / val d * val d) with (val hi - val o) by (field; lra). lra. }
      split; [apply Rle_trans with q0; [apply Rmin_l|exact A]|apply Rle_trans with q1; [exact B|apply Rmax_r]].
    - rewrite Rabs_left in EK by lra. assert (A : q1 <= s - k).
      { apply (Rmult_le_reg_r (- val d)); [lra|]. unfold q1. replace ((val hi - val o) / val d * - val d) with (- (val hi - val o)) by (field; lra). lra. }
      assert (B : s + k <= q0). { apply (Rmult_le_reg_r (- val d)); [lra|]. unfold q0. replace ((val lo - val o) / val d * - val d) with (- (val lo - val o)) by (field; lra). lra. }
      split; [apply Rle_trans with q1; [apply Rmin_r|exact A]|apply Rle_trans with q0; [exact B|apply Rmax_l]]. }
  destruct QQ as (n & f & (EN & EF) & HN & HF).
  (* the computed minimum and maximum *)
  assert (UP : forall c q, Rabs (c - q) <= 301 / 100 * ulp1 * Rabs q + ulp1 / 1000000 -> q <= s - k -> c <= (s - k) + 1205 / 100 * ulp1 * L).
  { intros c q HC HQ. apply Rabs_le_inv in HC. destruct (Rle_or_lt 0 q) as [S|S].
    - rewrite Rabs_pos_eq in HC by lra. assert (301 / 100 * ulp1 * q <= 301 / 100 * ulp1 * (4 * L)) by (apply Rmult_le_compat_l; lra). nra.
    - rewrite Rabs_left in HC by lra. assert (0 <= (1 - 301/100 * ulp1) * (- q)) by (apply Rmult_le_pos; lra). 
      assert (k <= 64 * ulp1 * L).
      { destruct HM as [->| ->]; unfold k; [|rewrite ulp1_val; lra]. unfold Rdiv. rewrite Rmult_0_l. assert (0 <= ulp1 * L) by (apply Rmult_le_pos; lra). lra. }
      assert (64 * ulp1 * L <= 1 / 1000000). { apply Rle_trans with (64 * (1 / 4000000000000000) * 1024); [|lra]. apply Rmult_le_compat; try lra. }
      assert (0 <= ulp1 * L) by (apply Rmult_le_pos; lra). lra. }
  assert (DN : forall c q, Rabs (c - q) <= 301 / 100 * ulp1 * Rabs q + ulp1 / 1000000 -> s + k <= q -> (s + k) - 1205 / 100 * ulp1 * L <= c).
  { intros c q HC HQ. apply Rabs_le_inv in HC. rewrite Rabs_pos_eq in HC by lra.
    assert (A : (s + k) * (1 - 301/100 * ulp1) <= q * (1 - 301/100 * ulp1)) by (apply Rmult_le_compat_r; lra).
    assert (KL : k <= L / 1000). { destruct HM as [->| ->]; unfold k; lra. }
    assert (301 / 100 * ulp1 * (s + k) <= 301 / 100 * ulp1 * (4001 / 1000 * L)) by (apply Rmult_le_compat_l; lra). nra. }
  assert (RR : (val c0 < val c1 /\ r = (c0, c1)) \/ (val c1 <= val c0 /\ r = (c1, c0))).
  { unfold r, slab_axis. cbv zeta. fold c0 c1. rewrite (ltb_val _ _ _ F0 F1). destruct (Rlt_bool_spec (val c0) (val c1)); [left|right]; auto. }
  assert (BND : val (fst r) <= (s - k) + 1205 / 100 * ulp1 * L /\ (s + k) - 1205 / 100 * ulp1 * L <= val (snd r) /\ finite_upto TOP (fst r) /\ finite_upto TOP (snd r) /\ val (fst r) <= val (snd r)).
  { assert (NN : val c0 <= (s - k) + 1205 / 100 * ulp1 * L \/ val c1 <= (s - k) + 1205 / 100 * ulp1 * L).
    { unfold Rmin in EN. destruct (Rle_dec q0 q1); [left|right]; eapply UP; try eassumption; lra. }
    assert (FF : (s + k) - 1205 / 100 * ulp1 * L <= val c0 \/ (s + k) - 1205 / 100 * ulp1 * L <= val c1).
    { unfold Rmax in EF. destruct (Rle_dec q0 q1); [right|left]; eapply DN; try eassumption; lra. }
    destruct RR as [(C & ->)|(C & ->)]; cbn [fst snd]; (split; [lra|]); (split; [lra|]); (split; [assumption|]); (split; [assumption|]); lra. }
  destruct BND as (B1 & B2 & B3 & B4 & B5). split; [exact B3|]. split; [exact B4|]. split; [exact B5|].
  assert (UL : 0 <= ulp1 * L) by (apply Rmult_le_pos; lra). split.
  - intros ->. assert (k = 0) by (unfold k; lra). lra.
  - intros HM0. destruct HM as [->|HM]; [congruence|]. assert (KK : 60 * ulp1 * L <= k) by (unfold k; rewrite HM, ulp1_val; lra). lra.
Qed.

Lemma parameter_bound (L s : R) (o d p lo hi : VecR) : 1 <= L -> 0 < s -> Rabs (dot d d - 1) <= 1 / 1000 ->
  (Rabs (vx o) <= L /\ Rabs (vy o) <= L /\ Rabs (vz o) <= L) -> (Rabs (vx lo) <= L /\ Rabs (vy lo) <= L /\ Rabs (vz lo) <= L) ->
  (Rabs (vx hi) <= L /\ Rabs (vy hi) <= L /\ Rabs (vz hi) <= L) ->
  vx lo <= vx o + s * vx d <= vx hi -> vy lo <= vy o + s * vy d <= vy hi -> vz lo <= vz o + s * vz d <= vz hi -> s <= 4 * L.
Proof.
  intros HL S0 HU (O1 & O2 & O3) (A1 & A2 & A3) (B1 & B2 & B3) HX HY HZ. unfold dot in HU. destruct o as [ox oy oz], d as [dx dy dz], lo as [lx ly lz], hi as [hx hy hz]. cbn [vx vy vz] in *.
  repeat match goal with H : Rabs _ <= _ |- _ => apply Rabs_le_inv in H end.
  set (a := s * dx) in *. set (b := s * dy) in *. set (c := s * dz) in *.
  assert (T : forall y : R, - (2 * L) <= y <= 2 * L -> y * y <= 4 * (L * L)) by (intros; nra).
  pose proof (T a ltac:(lra)). pose proof (T b ltac:(lra)). pose proof (T c ltac:(lra)).
  assert (Q : s * s * (dx * dx + dy * dy + dz * dz) <= 12 * (L * L)) by (unfold a, b, c in *; lra).
  assert (s * s * (999 / 1000) <= 12 * (L * L)) by (refine (Rle_trans _ _ _ _ Q); apply Rmult_le_compat_l; [nra|lra]).
  apply Rnot_lt_le. intros C. nra.
Qed.
Theorem slab_ok L (ray : RayF) : 1 <= L <= 1024 -> within L (origin ray) -> within 2 (direction ray) ->
  Rabs (dot (val_vec (direction ray)) (val_vec (direction ray)) - 1) <= 1 / 1000 -> oblique ray -> box_test64 slab_ext L ray.
Proof.
  intros HL HO HD HU (D1 & D2 & D3) b s ((A1 & A2 & A3) & (B1 & B2 & B3)) HS HE. change (slab64 b ray (inv_dir ray) = true).
  destruct (direction_near L _ HD HU) as ((_ & N1 & _) & (_ & N2 & _) & (_ & N3 & _)). cbn [vx vy vz val_vec pt pow] in N1, N2, N3. rewrite Rmult_1_r in N1, N2, N3.
  destruct HD as (G1 & G2 & G3). destruct HO as (O1 & O2 & O3).
  unfold off_edges, in_box, along, plus, times, val_ray, val_box, val_vec, pt in HE. cbn [bmin bmax vx vy vz origin direction] in HE.
  assert (S4 : s <= 4 * L).
  { destruct HE as ((X & Y & Z) & _).
    apply (parameter_bound L s (val_vec (origin ray)) (val_vec (direction ray)) (val_vec (origin ray)) (val_vec (bmin b)) (val_vec (bmax b)));
      try lra; try exact HU; unfold val_vec, pt; cbn [vx vy vz]; first [exact X|exact Y|exact Z|split; [|split]; first [apply O1|apply O2|apply O3|apply A1|apply A2|apply A3|apply B1|apply B2|apply B3]]. }
  unfold slab64, inv_dir. cbn [vx vy vz].
  set (m := L / 2 ^ 47) in *. assert (M0 : m <> 0) by (unfold m; apply Rgt_not_eq, Rdiv_lt_0_compat; lra).
  assert (SP : forall (lo hi o d : @F NumSF) k, finite_upto L lo -> finite_upto L hi -> finite_upto L o -> finite_upto 2 d -> Rabs (val d) <= 1001 / 1000 ->
    bpow radix2 (-100) <= Rabs (val d) -> (k = 0 \/ k = m) -> val lo + k <= val o + s * val d <= val hi - k -> _)
    by (intros lo hi o d k Q1 Q2 Q3 Q4 Q5 Q6 Q7 Q8; exact (slab_axis_spec L lo hi o d s k HL Q1 Q2 Q3 Q4 Q5 Q6 HS S4 Q7 Q8)).
  destruct HE as ((X & Y & Z) & HE).
  assert (X0 : val (vx (bmin b)) + 0 <= val (vx (origin ray)) + s * val (vx (direction ray)) <= val (vx (bmax b)) - 0) by (rsimp; lra).
  assert (Y0 : val (vy (bmin b)) + 0 <= val (vy (origin ray)) + s * val (vy (direction ray)) <= val (vy (bmax b)) - 0) by (rsimp; lra).
  assert (Z0 : val (vz (bmin b)) + 0 <= val (vz (origin ray)) + s * val (vz (direction ray)) <= val (vz (bmax b)) - 0) by (rsimp; lra).
  pose proof (SP _ _ _ _ _ A1 B1 O1 G1 N1 D1 (or_introl eq_refl) X0) as PX. pose proof (SP _ _ _ _ _ A2 B2 O2 G2 N2 D2 (or_introl eq_refl) Y0) as PY.
  pose proof (SP _ _ _ _ _ A3 B3 O3 G3 N3 D3 (or_introl eq_refl) Z0) as PZ.
  pose proof (fun H => SP _ _ _ _ _ A1 B1 O1 G1 N1 D1 (or_intror eq_refl) H) as QX. pose proof (fun H => SP _ _ _ _ _ A2 B2 O2 G2 N2 D2 (or_intror eq_refl) H) as QY.
  pose proof (fun H => SP _ _ _ _ _ A3 B3 O3 G3 N3 D3 (or_intror eq_refl) H) as QZ. clear SP X0 Y0 Z0.
  cbv zeta in PX, PY, PZ, QX, QY, QZ.
  destruct (slab_axis (vx (bmin b)) _ _ _) as [nx fx]. destruct (slab_axis (vy (bmin b)) _ _ _) as [ny fy]. destruct (slab_axis (vz (bmin b)) _ _ _) as [nz fz]. cbn [fst snd] in *.
  destruct PX as (FX1 & FX2 & PX & PX' & _). destruct PY as (FY1 & FY2 & PY & PY' & _). destruct PZ as (FZ1 & FZ2 & PZ & PZ' & _).
  specialize (PX' eq_refl). specialize (PY' eq_refl). specialize (PZ' eq_refl).
  destruct (max_val _ _ _ FX1 FY1) as [W1 W1']. destruct (max_val _ _ _ W1' FZ1) as [W2 W2']. destruct (min_val _ _ _ FX2 FY2) as [W3 W3']. destruct (min_val _ _ _ W3' FZ2) as [W4 W4'].
  destruct f0_float as [V0 FF0]. assert (F0' : finite_upto TOP (@f0 NumSF)) by (apply (finite_weaken _ _ _ FF0); change 1 with (bpow radix2 0); apply bpow_le; lia).
  rewrite (leb_val _ _ _ W2' W4'), (ltb_val _ _ _ F0' W4'), W2, W1, W4, W3, V0.
  assert (UL : 0 <= 13 * ulp1 * L < 1 / 1000000).
  { pose proof ulp1_pos. split; [apply Rmult_le_pos; lra|]. rewrite ulp1_val. lra. }
  set (h := 13 * ulp1 * L) in *.
  assert (ALL : val nx <= val fy /\ val nx <= val fz /\ val ny <= val fx /\ val ny <= val fz /\ val nz <= val fx /\ val nz <= val fy).
  { unfold clear_of in HE. rsimp. destruct HE as [(C1 & C2)|[(C1 & C2)|(C1 & C2)]].
    - specialize (QX C1). specialize (QY C2). destruct QX as (_ & _ & _ & _ & QX), QY as (_ & _ & _ & _ & QY). specialize (QX M0). specialize (QY M0). lra.
    - specialize (QY C1). specialize (QZ C2). destruct QY as (_ & _ & _ & _ & QY), QZ as (_ & _ & _ & _ & QZ). specialize (QY M0). specialize (QZ M0). lra.
    - specialize (QX C1). specialize (QZ C2). destruct QX as (_ & _ & _ & _ & QX), QZ as (_ & _ & _ & _ & QZ). specialize (QX M0). specialize (QZ M0). lra. }
  clear QX QY QZ HE.
  rewrite Rle_bool_true; [rewrite Rlt_bool_true; [reflexivity|]|].
  - repeat apply Rmin_glb_lt; lra.
  - repeat apply Rmax_lub; repeat apply Rmin_glb; lra.
Qed.
