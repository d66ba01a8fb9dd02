(** * Property C103: the matte draw of a material in the program's own mixed precision *)
From Coq Require Import ZArith SpecFloat Reals Lra Lia Psatz List.
From Flocq Require Import Core BinarySingleNaN Relative.
From Verif Require Import Num NumR NumSF NumSF32 SFBridge FloatOps FloatRound FloatError Geometry Triangle SpecGeom TriangleProofs P_Exact Samplers Colour Mixed Single
  P_Single P_Single2 P_FloatHit P_FloatUnit P_FloatQuery P_FloatScale P_FloatDir P_FloatImage.
Open Scope R_scope.

(** ** the vocabulary of the statement *)
(** a frame whose axes are unit vectors at right angles up to rounding *)
Definition near_frame (e1 e2 n : VecF) : Prop :=
  within 2 e1 /\ within 2 e2 /\ within 2 n /\ let d a b := dot (val_vec a) (val_vec b) in
  Rabs (d e1 e1 - 1) <= / 2 ^ 40 /\ Rabs (d e2 e2 - 1) <= / 2 ^ 40 /\ Rabs (d n n - 1) <= / 2 ^ 40 /\
  Rabs (d e1 e2) <= / 2 ^ 40 /\ Rabs (d n e1) <= / 2 ^ 40 /\ Rabs (d n e2) <= / 2 ^ 40.

Definition combine (X Y Z : R) (a b n : VecR) : VecR := pt (X * vx a + Y * vx b + Z * vx n) (X * vy a + Y * vy b + Z * vy n) (X * vz a + Y * vz b + Z * vz n).
Lemma combine_dot X Y Z (a b n : VecR) : dot n (combine X Y Z a b n) = X * dot n a + Y * dot n b + Z * dot n n.
Proof. unfold combine. dvec. vunf. ring. Qed.
Lemma combine_square X Y Z (a b n : VecR) : dot (combine X Y Z a b n) (combine X Y Z a b n) =
  X * X * dot a a + Y * Y * dot b b + Z * Z * dot n n + 2 * (X * Y) * dot a b + 2 * (X * Z) * dot n a + 2 * (Y * Z) * dot n b.
Proof. unfold combine. dvec. vunf. ring. Qed.
Lemma small_term x y e : Rabs x <= 11 / 10 -> Rabs y <= e -> Rabs (x * y) <= 11 / 10 * e.
Proof. intros H1 H2. rewrite Rabs_mult. apply Rmult_le_compat; try apply Rabs_pos; assumption. Qed.
Lemma bounded_coord X Y Z m : Rabs (X * X + Y * Y + Z * Z - 1) <= m -> m <= 1 / 1000 -> Rabs X <= 1001 / 1000 /\ Rabs Y <= 1001 / 1000 /\ Rabs Z <= 1001 / 1000.
Proof. intros H HM. apply Rabs_le_inv in H. repeat split; apply Rabs_le; nra. Qed.

Lemma dot_diff (a b c : VecR) : dot a b - dot a c = vx a * (vx b - vx c) + vy a * (vy b - vy c) + vz a * (vz b - vz c).
Proof. dvec. vunf. ring. Qed.
  Lemma dot_close (a b c : VecR) e : close e b c -> Rabs (vx a) <= 1001/1000 -> Rabs (vy a) <= 1001/1000 -> Rabs (vz a) <= 1001/1000 -> 0 <= e -> Rabs (dot a b - dot a c) <= 33/10 * e.
  Proof.
    intros (H1 & H2 & H3) A1 A2 A3 E0. replace (dot a b - dot a c) with (vx a * (vx b - vx c) + vy a * (vy b - vy c) + vz a * (vz b - vz c)) by (symmetry; apply dot_diff).
    pose proof (small_term (vx a) _ _ ltac:(lra) H1). pose proof (small_term (vy a) _ _ ltac:(lra) H2). pose proof (small_term (vz a) _ _ ltac:(lra) H3).
    refine (Rle_trans _ _ _ (Rabs_triang _ _) _). pose proof (Rabs_triang (vx a * (vx b - vx c)) (vy a * (vy b - vy c))). lra.
  Qed.
  Lemma dot_scaled (a b : VecR) k : dot a (times k b) = k * dot a b.
  Proof. dvec. vunf. ring. Qed.
Section Matte.
  Variables (e1 e2 n : VecF) (l : VecF).
  Hypothesis HF : near_frame e1 e2 n.
  Hypothesis HL : finite_upto 2 (vx l) /\ finite_upto 2 (vy l) /\ finite_upto 2 (vz l).
  Let X := val (vx l).
  Let Y := val (vy l).
  Let Z := val (vz l).
  Hypothesis HN : Rabs (X * X + Y * Y + Z * Z - 1) <= 2 / 10 ^ 6.
  Hypothesis HZ : 1 / 1000 <= Z.
  Let A := val_vec e1.
  Let B := val_vec e2.
  Let N := val_vec n.
  Let S := combine X Y Z A B N.
  Let raw := @local_to_world NumSF e1 e2 n vorigin (vx l) (vy l) (vz l).

  Lemma axis_near (v : VecF) : within 2 v -> Rabs (dot (val_vec v) (val_vec v) - 1) <= / 2 ^ 40 -> nearv 1 0 (1001/1000) 0 v (val_vec v).
  Proof.
    intros (F1 & F2 & F3) U. assert (E : dot (val_vec v) (val_vec v) = val (vx v) * val (vx v) + val (vy v) * val (vy v) + val (vz v) * val (vz v)) by reflexivity. rewrite E in U.
    destruct (bounded_coord _ _ _ _ U ltac:(lra)) as (B1 & B2 & B3). assert (W : 2 <= BIG) by (rewrite BIG_val; lra).
    split; [|split]; cbn [vx vy vz val_vec pt]; (apply near_exact; [eapply finite_weaken; eassumption|cbn [pow]; lra]).
  Qed.
  Lemma coord_near (x : @F NumSF) : finite_upto 2 x -> Rabs (val x) <= 1001/1000 -> near 1 0 (1001/1000) 0 x (val x).
  Proof. intros HF1 H. assert (W : 2 <= BIG) by (rewrite BIG_val; lra). apply near_exact; [eapply finite_weaken; eassumption|cbn [pow]; lra]. Qed.
  Lemma origin_near : near 1 0 0 0 (@f0 NumSF) 0.
  Proof. destruct zero_val as [V0 F0]. pose proof (near_exact 1 0 0 (@f0 NumSF)) as K. rewrite V0 in K. apply K; [|rewrite Rabs_R0; cbn; lra]. apply (finite_weaken _ _ _ F0). rewrite BIG_val. lra. Qed.
  Lemma raw_near : nearv 1 0 4 (91/10) raw S.
  Proof.
    destruct HF as (W1 & W2 & W3 & U1 & U2 & U3 & _). destruct (axis_near e1 W1 U1) as (A1 & A2 & A3). destruct (axis_near e2 W2 U2) as (B1 & B2 & B3). destruct (axis_near n W3 U3) as (N1 & N2 & N3).
    destruct (bounded_coord _ _ _ _ HN ltac:(lra)) as (BX & BY & BZ). destruct HL as (L1 & L2 & L3).
    pose proof (coord_near _ L1 BX) as PX. pose proof (coord_near _ L2 BY) as PY. pose proof (coord_near _ L3 BZ) as PZ. fold X in PX. fold Y in PY. fold Z in PZ. pose proof origin_near as PO.
    assert (M : forall x y rx ry, near 1 0 (1001/1000) 0 x rx -> near 1 0 (1001/1000) 0 y ry -> near 1 0 (1003/1000) (1006/1000) (@fmul NumSF x y) (rx * ry)).
    { intros x y rx ry HX HY. apply (near_mul 1 ltac:(lra) ltac:(lra) 0 0 (1001/1000) 0 (1001/1000) 0 (1003/1000) (1006/1000) _ _ _ _ HX HY); [lia|lra..]. }
    assert (C : forall x y z a b c q1 q2 q3 r1 r2 r3, near 1 0 (1001/1000) 0 x q1 -> near 1 0 (1001/1000) 0 y q2 -> near 1 0 (1001/1000) 0 z q3 ->
      near 1 0 (1001/1000) 0 a r1 -> near 1 0 (1001/1000) 0 b r2 -> near 1 0 (1001/1000) 0 c r3 ->
      near 1 0 4 (91/10) (@fadd NumSF (@fadd NumSF (@fadd NumSF (@f0 NumSF) (@fmul NumSF x a)) (@fmul NumSF y b)) (@fmul NumSF z c)) (q1 * r1 + q2 * r2 + q3 * r3)).
    { intros x y z a b c q1 q2 q3 r1 r2 r3 H1 H2 H3 H4 H5 H6. pose proof (M _ _ _ _ H1 H4) as M1. pose proof (M _ _ _ _ H2 H5) as M2. pose proof (M _ _ _ _ H3 H6) as M3.
      assert (Z1 : near 1 0 (1003/1000) (2011/1000) (@fadd NumSF (@f0 NumSF) (@fmul NumSF x a)) (0 + q1 * r1)).
      { apply (near_add 1 ltac:(lra) ltac:(lra) 0 0 0 (1003/1000) (1006/1000) _ _ _ _ _ _ PO M1); [lia|lra..]. }
      rewrite Rplus_0_l in Z1.
      assert (Z2 : near 1 0 (2006/1000) (5025/1000) (@fadd NumSF (@fadd NumSF (@f0 NumSF) (@fmul NumSF x a)) (@fmul NumSF y b)) (q1 * r1 + q2 * r2)).
      { apply (near_add 1 ltac:(lra) ltac:(lra) 0 (1003/1000) (2011/1000) (1003/1000) (1006/1000) _ _ _ _ _ _ Z1 M2); [lia|lra..]. }
      apply (near_add 1 ltac:(lra) ltac:(lra) 0 (2006/1000) (5025/1000) (1003/1000) (1006/1000) _ _ _ _ _ _ Z2 M3); [lia|lra..]. }
    split; [exact (C _ _ _ _ _ _ _ _ _ _ _ _ PX PY PZ A1 B1 N1)|]. split; [exact (C _ _ _ _ _ _ _ _ _ _ _ _ PX PY PZ A2 B2 N2)|exact (C _ _ _ _ _ _ _ _ _ _ _ _ PX PY PZ A3 B3 N3)].
  Qed.
  Lemma sum_facts : Rabs (dot S S - 1) <= 3 / 10 ^ 6 /\ Rabs (dot N S - Z) <= / 2 ^ 37 /\ Rabs Z <= 1001 / 1000.
  Proof.
    destruct HF as (W1 & W2 & W3 & U1 & U2 & U3 & O1 & O2 & O3). fold A B N in U1, U2, U3, O1, O2, O3. unfold S. rewrite combine_dot, combine_square.
    destruct (bounded_coord _ _ _ _ HN ltac:(lra)) as (BX & BY & BZ).
    set (a := dot A A) in *. set (b := dot B B) in *. set (c := dot N N) in *. set (p := dot A B) in *. set (q := dot N A) in *. set (r := dot N B) in *. clearbody a b c p q r X Y Z.
    assert (PB : forall x y : R, Rabs x <= 1001 / 1000 -> Rabs y <= 1001 / 1000 -> Rabs (x * y) <= 11 / 10).
    { intros x y H1 H2. rewrite Rabs_mult. apply Rle_trans with (1001/1000 * (1001/1000)); [apply Rmult_le_compat; try apply Rabs_pos; assumption|lra]. }
    assert (LB : forall x : R, Rabs x <= 1001 / 1000 -> Rabs x <= 11 / 10) by (intros; lra).
    pose proof (small_term _ _ _ (PB _ _ BX BX) U1) as T1. pose proof (small_term _ _ _ (PB _ _ BY BY) U2) as T2. pose proof (small_term _ _ _ (PB _ _ BZ BZ) U3) as T3.
    pose proof (small_term _ _ _ (PB _ _ BX BY) O1) as T4. pose proof (small_term _ _ _ (PB _ _ BX BZ) O2) as T5. pose proof (small_term _ _ _ (PB _ _ BY BZ) O3) as T6.
    pose proof (small_term _ _ _ (LB _ BX) O2) as T7. pose proof (small_term _ _ _ (LB _ BY) O3) as T8. pose proof (small_term _ _ _ (LB _ BZ) U3) as T9.
    apply Rabs_le_inv in T1, T2, T3, T4, T5, T6, T7, T8, T9. apply Rabs_le_inv in HN. set (eps := / 2 ^ 40) in *. assert (E0 : 0 < eps <= / 10 ^ 9) by (unfold eps; split; lra). assert (E1 : / 2 ^ 37 = 8 * eps) by (unfold eps; lra). rewrite E1. clearbody eps.
    split; [|split; [|exact BZ]]; apply Rabs_le; split; nra.
  Qed.
  Lemma raw_close : close (91/10 * ulp1) (val_vec raw) S.
  Proof. destruct raw_near as ((_ & _ & P) & (_ & _ & Q) & (_ & _ & R)). cbn [pow] in P, Q, R. rewrite Rmult_1_r in P, Q, R. exact (conj P (conj Q R)). Qed.
  Lemma sum_norm : 1 - 3 / 10 ^ 6 <= norm S <= 1 + 3 / 10 ^ 6.
  Proof. destruct sum_facts as (H & _). assert (K := norm_unit S (3 / 10 ^ 6) ltac:(lra) H). apply Rabs_le_inv in K. lra. Qed.
  Lemma raw_sizeable : sizeable raw.
  Proof.
    destruct raw_near as ((FX & BX & XX) & (FY & BY & YY) & (FZ & BZ & ZZ)). cbn [pow] in XX, YY, ZZ. rewrite Rmult_1_r in XX, YY, ZZ.
    assert (W : forall x : spec_float, finite_upto BIG x -> finite_upto (bpow radix2 400) x) by (intros x0 H; apply (finite_weaken _ _ _ H); apply bpow_le; lia).
    split; [exact (W _ FX)|]. split; [exact (W _ FY)|]. split; [exact (W _ FZ)|].
    assert (SM : bpow radix2 (-400) <= / 4) by (apply Rle_trans with (bpow radix2 (-2)); [apply bpow_le; lia|cbn; lra]).
    pose proof sum_norm as NN. assert (U : 91/10 * ulp1 <= 1 / 1000000) by (rewrite ulp1_val; lra).
    destruct (Rle_or_lt (/ 4) (Rabs (val (vx raw)))) as [|GX]; [left; lra|]. destruct (Rle_or_lt (/ 4) (Rabs (val (vy raw)))) as [|GY]; [right; left; lra|].
    destruct (Rle_or_lt (/ 4) (Rabs (val (vz raw)))) as [|GZ]; [right; right; lra|]. exfalso.
    assert (T : forall a b : R, Rabs (a - b) <= 91/10 * ulp1 -> Rabs a < / 4 -> Rabs b <= 26 / 100).
    { intros a b H1 H2. replace b with (a + - (a - b)) by ring. apply (Rle_trans _ _ _ (Rabs_triang _ _)). rewrite Rabs_Ropp. lra. }
    pose proof (norm_small S (26 / 100) ltac:(lra) (T _ _ XX GX) (T _ _ YY GY) (T _ _ ZZ GZ)). lra.
  Qed.
  Let D := val_vec (vnormalized raw).
  Lemma drawn : unit_vec64 (vnormalized raw) /\ Rabs (dot N D - Z) <= 4 / 10 ^ 6.
  Proof.
    destruct (C97_unit raw raw_sizeable) as (F1 & C1 & U1). split; [exact (conj F1 U1)|].
    pose proof sum_norm as NS. destruct sum_facts as (_ & HD & HZb). pose proof ulp1_pos as U0. assert (US : ulp1 <= / 10 ^ 15) by (rewrite ulp1_val; lra).
    destruct (unit_close (val_vec raw) S (91/10 * ulp1) ltac:(lra) raw_close ltac:(lra) ltac:(lra)) as [_ C2]. fold D in C1.
    destruct HF as (_ & _ & W3 & _ & _ & U3 & _). destruct (axis_near n W3 U3) as ((_ & N1 & _) & (_ & N2 & _) & (_ & N3 & _)). fold N in N1, N2, N3. cbn [pow] in N1, N2, N3. rewrite Rmult_1_r in N1, N2, N3.
    pose proof (dot_close N _ _ _ C1 N1 N2 N3 ltac:(lra)) as K1. 
    assert (E2 : 0 <= 274 / 100 * (91 / 10 * ulp1 / norm S) <= 30 * ulp1).
    { assert (IN : 0 < / norm S <= 11 / 10). { split; [apply Rinv_0_lt_compat; lra|]. apply Rle_trans with (/ (10 / 11)); [apply Rinv_le_contravar; lra|lra]. } unfold Rdiv. nra. }
    pose proof (dot_close N _ _ _ C2 N1 N2 N3 ltac:(lra)) as K2. rewrite (dot_scaled N S) in K2.
    assert (K3 : Rabs (/ norm S * dot N S - Z) <= 32 / 10 ^ 7).
    { set (m := norm S) in *. set (w := dot N S) in *. clearbody m w. 
      assert (Q : Rabs (w - m * Z) <= 31 / 10 ^ 7).
      { apply Rabs_le_inv in HD. apply Rabs_le_inv in HZb. assert (P : - (301 / 10 ^ 8) <= (1 - m) * Z <= 301 / 10 ^ 8) by (split; nra). apply Rabs_le. split; lra. }
      replace (/ m * w - Z) with ((w - m * Z) * / m) by (field; lra). rewrite Rabs_mult, (Rabs_pos_eq (/ m)) by (apply Rlt_le, Rinv_0_lt_compat; lra).
      assert (IN : 0 < / m <= 101 / 100). { split; [apply Rinv_0_lt_compat; lra|]. apply Rle_trans with (/ (100 / 101)); [apply Rinv_le_contravar; lra|lra]. }
      pose proof (Rabs_pos (w - m * Z)). nra. }
    replace (dot N D - Z) with ((dot N D - dot N (times (/ norm (val_vec raw)) (val_vec raw))) + ((dot N (times (/ norm (val_vec raw)) (val_vec raw)) - / norm S * dot N S) + (/ norm S * dot N S - Z))) by ring.
    assert (T51 : / 2 ^ 51 = 4 * ulp1) by (rewrite ulp1_val; lra).
    apply Rabs_le_inv in K1. apply Rabs_le_inv in K2. apply Rabs_le_inv in K3. apply Rabs_le. lra.
  Qed.
  Lemma cosine_val : near 1 0 (31/10) (81/10) (@vdot NumSF n (vnormalized raw)) (dot N D).
  Proof.
    destruct HF as (_ & _ & W3 & _ & _ & U3 & _). destruct drawn as [[W U] _]. assert (U' : Rabs (dot (val_vec (vnormalized raw)) (val_vec (vnormalized raw)) - 1) <= / 2 ^ 40) by lra.
    apply (near_dot 1 ltac:(lra) ltac:(lra) 0 0 (1001/1000) 0 (1001/1000) 0 (1003/1000) (1006/1000) (2006/1000) (402/100) (31/10) (81/10) n (vnormalized raw) N D (axis_near n W3 U3) (axis_near _ W U')); [lia|lra..].
  Qed.
End Matte.

(** ** C103 *)
(** The matte draw, with single precision draws, sines and cosines and a frame that is orthonormal only up to rounding: unless the
    first number drawn is within three millionths of 1, the direction is a unit vector, it leaves the surface on its front side at the
    cosine that the exact sampler of C26 draws, and the density is positive and is the cosine over pi *)
Theorem C103_matte : forall (T : Trig NumSF32) (T64 : Trig NumSF) (n e1 e2 : VecF) (r theta : @F NumSF32),
  accurate32 T -> draw01 r -> draw01 theta -> val r <= 1 - 4 / 10 ^ 6 -> near_frame e1 e2 n ->
  finite_upto 4 (@fpi NumSF T64) -> Rabs (val (@fpi NumSF T64) - PI) <= / 2 ^ 40 ->
  let '(dir, pdf) := @matte_mixed T T64 n e1 e2 r theta in let cosine := dot (val_vec n) (val_vec dir) in
  unit_vec64 dir /\ 0 < cosine /\ Rabs (cosine * cosine - (1 - val r)) <= 11 / 10 ^ 6 /\
  finite_upto 1 pdf /\ 0 < val pdf /\ Rabs (val pdf - cosine / PI) <= / 2 ^ 40.
Proof.
  intros T T64 n e1 e2 r th HT Hr Hth HR HF FP EP. unfold matte_mixed. cbv zeta. pose proof (C103_cosine T r th HT Hr Hth) as C. cbv zeta in C.
  set (l := @cosine_mixed T r th) in *. clearbody l. destruct C as (HL & HN & Z0 & _ & _ & HZ2). unfold norm2 in HN.
  assert (HZ : 1 / 1000 <= val (vz l)) by (apply Rabs_le_inv in HZ2; nra).
  destruct (drawn e1 e2 n l HF HL HN HZ) as [HU HC]. destruct (cosine_val e1 e2 n l HF HL HN HZ) as (FV & _ & EV). cbn [pow] in EV. rewrite Rmult_1_r in EV.
  set (dir := vnormalized _) in *. clearbody dir. set (cs := dot (val_vec n) (val_vec dir)) in *.
  assert (BZ : Rabs (val (vz l)) <= 1001 / 1000) by (apply (bounded_coord _ _ _ _ HN); lra).
  split; [exact HU|]. clearbody cs. set (z := val (vz l)) in *. clearbody z. clear HN HU HL. apply Rabs_le_inv in HC. apply Rabs_le_inv in BZ.
  assert (CB : 99 / 100000 <= cs <= 101 / 100) by lra. split; [lra|]. split.
  { apply Rabs_le_inv in HZ2. assert (P : - (81 / 10 ^ 7) <= cs * cs - z * z <= 81 / 10 ^ 7).
    { replace (cs * cs - z * z) with ((cs - z) * (cs + z)) by ring. assert (0 <= cs + z <= 2011 / 1000) by lra. split; nra. } apply Rabs_le. lra. }
  assert (P3 : 3 < PI) by (pose proof PI2_3_2; lra). pose proof PI_4 as P4.
  set (v := @vdot NumSF n dir) in *. set (p := @fpi NumSF T64) in *. clearbody v p. apply Rabs_le_inv in EP. apply Rabs_le_inv in EV.
  assert (U : ulp1 = / 2 ^ 53) by exact ulp1_val. set (u := ulp1) in *. assert (US : 0 < u <= / 10 ^ 15) by (rewrite U; split; lra).
  assert (VB : 98 / 100000 <= val v <= 102 / 100) by lra. assert (PB : 299 / 100 <= val p <= 401 / 100) by lra.
  assert (IP : 0 < / val p <= 1 / 2). { split; [apply Rinv_0_lt_compat; lra|]. apply Rle_trans with (/ 2); [apply Rinv_le_contravar; lra|lra]. }
  assert (IL : 1 / 5 <= / val p). { apply Rle_trans with (/ 5); [lra|apply Rinv_le_contravar; lra]. }
  assert (QB : 19 / 100000 <= val v / val p <= 51 / 100) by (unfold Rdiv; split; nra).
  destruct (div_val 0 ltac:(lia) _ _ v p FV FP ltac:(lra)) as [VQ FQ]. { change (bpow radix2 0) with 1. rewrite Rabs_pos_eq; lra. }
  change (bpow radix2 0) with 1 in FQ. split; [exact FQ|]. rewrite VQ. pose proof (rnd_near (val v / val p)) as RN. rewrite (Rabs_pos_eq (val v / val p)) in RN by lra. fold u in RN. apply Rabs_le_inv in RN.
  assert (UQ : u * (val v / val p) <= u) by nra. split; [lra|].
  assert (DI : Rabs (val v / val p - cs / PI) <= / 2 ^ 42).
  { replace (val v / val p - cs / PI) with ((val v - cs) * / val p + cs * (/ val p * ((PI - val p) * / PI))) by (field; lra).
    assert (IPI : 0 < / PI <= 1 / 3). { split; [apply Rinv_0_lt_compat; lra|]. apply Rle_trans with (/ 3); [apply Rinv_le_contravar; lra|lra]. }
    assert (IP3 : / val p <= 335 / 1000). { apply Rle_trans with (/ (299 / 100)); [apply Rinv_le_contravar; lra|lra]. }
    assert (T1 : Rabs ((val v - cs) * / val p) <= 5 * u). { rewrite Rabs_mult, (Rabs_pos_eq (/ val p)) by lra. assert (Rabs (val v - cs) <= 81 / 10 * u) by (apply Rabs_le; lra). pose proof (Rabs_pos (val v - cs)). nra. }
    set (e := / 2 ^ 40) in *. assert (E0 : 0 < e <= / 10 ^ 9) by (unfold e; split; lra). assert (E42 : / 2 ^ 42 = e / 4) by (unfold e; lra). assert (EU : u = e / 8192) by (rewrite U; unfold e; lra).
    assert (T2 : Rabs (cs * (/ val p * ((PI - val p) * / PI))) <= 114 / 1000 * e).
    { rewrite !Rabs_mult. rewrite (Rabs_pos_eq cs), (Rabs_pos_eq (/ val p)), (Rabs_pos_eq (/ PI)) by lra. assert (B1 : Rabs (PI - val p) <= e) by (apply Rabs_le; lra). pose proof (Rabs_pos (PI - val p)) as B0.
      assert (S1 : Rabs (PI - val p) * / PI <= e / 3) by nra. assert (S0 : 0 <= Rabs (PI - val p) * / PI) by nra.
      assert (S2 : / val p * (Rabs (PI - val p) * / PI) <= 112 / 1000 * e) by nra. assert (S3 : 0 <= / val p * (Rabs (PI - val p) * / PI)) by nra. nra. }
    refine (Rle_trans _ _ _ (Rabs_triang _ _) _). rewrite E42. lra. }
  apply Rabs_le_inv in DI. assert (/ 2 ^ 40 = 4 * / 2 ^ 42) by lra. assert (u = / 2 ^ 42 / 2048) by (rewrite U; lra). apply Rabs_le. lra.
Qed.
Print Assumptions C103_matte.

(** ** the hypotheses can be met: the correctly rounded functions, the middle draws and the axes *)
Lemma pi_tighter : 31415926535897 / 10 ^ 13 <= PI <= 31415926535899 / 10 ^ 13.
Proof. pose proof (PI_2_3_7_ineq 8) as [H1 H2]. unfold tg_alt, PI_2_3_7_tg, Ratan_seq in *. simpl in H1, H2. lra. Qed.
Definition f64_pi : spec_float := S754_finite false 7074237752028440 (-51).
Lemma f64_pi_val : finite_upto 4 f64_pi /\ Rabs (val f64_pi - PI) <= / 2 ^ 40.
Proof.
  assert (V : val f64_pi = 7074237752028440 / 2251799813685248). { unfold val, SF2R, f64_pi, F2R. cbn [Fnum Fexp cond_Zopp]. cbn. lra. }
  pose proof pi_tighter. split; [split; [reflexivity|split; [reflexivity|rewrite V, Rabs_pos_eq; lra]]|]. rewrite V. apply Rabs_le. lra.
Qed.
Lemma axes_frame : near_frame ex ey ez.
Proof.
  destruct one_val as [V1 F1]. destruct zero_val as [V0 F0].
  assert (W1 : finite_upto 2 (@f1 NumSF)) by (apply (finite_weaken _ _ _ F1); lra). assert (W0 : finite_upto 2 (@f0 NumSF)) by (apply (finite_weaken _ _ _ F0); lra).
  assert (EX : val_vec ex = pt 1 0 0) by (unfold val_vec, ex; cbn [vx vy vz]; rewrite V1, V0; reflexivity).
  assert (EY : val_vec ey = pt 0 1 0) by (unfold val_vec, ey; cbn [vx vy vz]; rewrite V1, V0; reflexivity).
  assert (EZ : val_vec ez = pt 0 0 1) by (unfold val_vec, ez; cbn [vx vy vz]; rewrite V1, V0; reflexivity).
  unfold near_frame. rewrite EX, EY, EZ. split; [exact (conj W1 (conj W0 W0))|]. split; [exact (conj W0 (conj W1 W0))|]. split; [exact (conj W0 (conj W0 W1))|].
  cbv zeta. unfold dot, pt. cbn [vx vy vz vdot fadd fmul NumR]. repeat split; apply Rabs_le; lra.
Qed.
Example C103_matte_hyp : let half := draw32 (2 ^ 23) in
  accurate32 perfect /\ draw01 half /\ val half <= 1 - 4 / 10 ^ 6 /\ near_frame ex ey ez /\ finite_upto 4 f64_pi /\ Rabs (val f64_pi - PI) <= / 2 ^ 40.
Proof.
  cbv zeta. assert (E : (draw32 (2 ^ 23) : spec_float) = S754_finite false 8388608 (-24)) by (vm_compute; reflexivity). rewrite E.
  assert (V : val (S754_finite false 8388608 (-24)) = 1 / 2). { unfold val, SF2R, F2R. cbn [Fnum Fexp cond_Zopp]. cbn. lra. }
  split; [exact (correct_accurate _ perfect_correct)|]. split.
  { split; [split; [reflexivity|split; [reflexivity|rewrite V, Rabs_pos_eq; lra]]|rewrite V; lra]. }
  split; [rewrite V; lra|]. split; [exact axes_frame|]. exact f64_pi_val.
Qed.

(** ** C103: the uniform hemisphere sampler (which nothing in the program calls), in mixed precision: a unit vector, so that the
    function's debug assertion holds, at the height drawn *)
Lemma square_close a b e : Rabs (a - b) <= e -> e <= 1 / 10 ^ 12 -> Rabs b <= 11 / 10 -> Rabs (a * a - b * b) <= 1 / 10 ^ 11.
Proof.
  intros H1 HE H2. pose proof (prod_error _ _ _ _ _ _ _ _ H1 H1 H2 H2) as P. pose proof (Rabs_pos (a - b)). assert (e * e <= e) by nra. lra.
Qed.
Theorem C103_hemisphere : forall (T : Trig NumSF32) (rand1 rand2 : @F NumSF32) (e1 e2 n : VecF), accurate32 T -> draw01 rand1 -> draw01 rand2 -> near_frame e1 e2 n ->
  let dir := hemisphere_mixed rand1 rand2 e1 e2 n in
  within 2 dir /\ Rabs (norm2 dir - 1) <= 4 / 10 ^ 6 /\ Rabs (dot (val_vec n) (val_vec dir) - val rand1) <= / 2 ^ 36.
Proof.
  intros T r1 r2 e1 e2 n HT H1 H2 HF dir. unfold dir, hemisphere_mixed. cbv zeta. clear dir. destruct H1 as [FZ Z1]. destruct one32 as [O1 O2].
  assert (ZZ : 0 <= val r1 * val r1 <= 1) by nra.
  destruct (mul32 _ _ FZ FZ) as [VS FS]; [apply Rabs_le; lra|]. pose proof (in01 _ ZZ) as S1. pose proof (rerr (val r1 * val r1) 1 ltac:(apply Rabs_le; lra)) as S2. rewrite <- VS in S1, S2.
  set (zz := fmul r1 r1) in *. clearbody zz. clear VS.
  destruct (sub32 _ _ O1 FS) as [VD FD]; [rewrite O2; apply Rabs_le; lra|]. rewrite O2 in VD. pose proof (in01 (1 - val zz) ltac:(lra)) as G1. pose proof (rerr (1 - val zz) 1 ltac:(apply Rabs_le; lra)) as G2. rewrite <- VD in G1, G2.
  set (d := fsub (@f1 NumSF32) zz) in *. clearbody d. clear VD.
  destruct (root32 d FD G1) as (A1 & A2 & _ & A4). set (q := @fsqrt NumSF32 d) in *. clearbody q.
  assert (A5 : Rabs (val q * val q - (1 - val r1 * val r1)) <= (43 / 10) * (1 / 16777216)). { apply Rabs_le_inv in A4, G2, S2. apply Rabs_le. lra. }
  destruct (angle32 T r2 HT H2) as (B1 & B2 & _). destruct HT as (_ & _ & HS). destruct (HS _ B1 B2) as (I1 & I2 & C1 & C2).
  set (a := val (fmul (fmul f2 (@fpi NumSF32 T)) r2)) in *. set (si := @fsin NumSF32 T (fmul (fmul f2 (@fpi NumSF32 T)) r2)) in *. set (co := @fcos NumSF32 T (fmul (fmul f2 (@fpi NumSF32 T)) r2)) in *. clearbody si co.
  pose proof (SIN_bound a) as SB. pose proof (COS_bound a) as CB.
  assert (NS : near32 (1 / 16777216) si (sin a)) by (split; [exact I1|lra]). assert (NC : near32 (1 / 16777216) co (cos a)) by (split; [exact C1|lra]).
  assert (AQ : Rabs (val q) <= 1) by (rewrite Rabs_pos_eq; lra). assert (AS : Rabs (sin a) <= 1) by (apply Rabs_le; lra). assert (AC : Rabs (cos a) <= 1) by (apply Rabs_le; lra).
  destruct (n_mul 1 1 (1 / 16777216) 0 ((22 / 10) * (1 / 16777216)) _ _ _ _ NC (n_exact _ A1) AC AQ ltac:(lra) ltac:(lra)) as [X1 X2].
  destruct (n_mul 1 1 (1 / 16777216) 0 ((22 / 10) * (1 / 16777216)) _ _ _ _ NS (n_exact _ A1) AS AQ ltac:(lra) ltac:(lra)) as [Y1 Y2].
  set (X := @fmul NumSF32 co q) in *. set (Y := @fmul NumSF32 si q) in *. clearbody X Y.
  assert (PC : Rabs (cos a * val q) <= 1) by (apply Rabs_le; nra). assert (PS : Rabs (sin a * val q) <= 1) by (apply Rabs_le; nra).
  pose proof (prod_error _ _ _ _ _ _ _ _ X2 X2 PC PC) as P1. pose proof (prod_error _ _ _ _ _ _ _ _ Y2 Y2 PS PS) as P2.
  pose proof (sin2_cos2 a) as SC. unfold Rsqr in SC.
  assert (QQ : cos a * val q * (cos a * val q) + sin a * val q * (sin a * val q) = val q * val q).
  { replace (val q * val q) with (val q * val q * (sin a * sin a + cos a * cos a)) by (rewrite SC; ring). ring. }
  destruct (widen_val _ X1) as [VX FX]. destruct (widen_val _ Y1) as [VY FY]. destruct (widen_val _ FZ) as [VZ FZ'].
  set (l := @V3 NumSF (widen X) (widen Y) (widen r1)).
  assert (HN : Rabs (val (vx l) * val (vx l) + val (vy l) * val (vy l) + val (vz l) * val (vz l) - 1) <= 2 / 10 ^ 6).
  { unfold l. cbn [vx vy vz]. rewrite VX, VY, VZ. apply Rabs_le_inv in P1, P2, A5. apply Rabs_le. lra. }
  assert (HL : finite_upto 2 (vx l) /\ finite_upto 2 (vy l) /\ finite_upto 2 (vz l)).
  { unfold l in *. cbn [vx vy vz] in *. rewrite VX, VY, VZ in HN. destruct (bounded_coord _ _ _ _ HN ltac:(lra)) as (BX & BY & BZ).
    split; [|split]; (eapply finite_weaken; [eassumption|]). all: lra. }
  assert (EZ : val (vz l) = val r1) by exact VZ. change (widen X) with (vx l). change (widen Y) with (vy l). change (widen r1) with (vz l). clearbody l. clear VX VY VZ FX FY FZ'.
  destruct (raw_near e1 e2 n l HF HL HN) as ((R1 & _ & R2) & (R3 & _ & R4) & (R5 & _ & R6)). cbn [pow] in R2, R4, R6. rewrite Rmult_1_r in R2, R4, R6.
  destruct (sum_facts e1 e2 n l HF HN) as (D1 & D2 & _).
  set (S := combine _ _ _ _ _ _) in *. clearbody S. rewrite EZ in D2. set (raw := @local_to_world NumSF _ _ _ _ _ _ _) in *.
  assert (US : 91 / 10 * ulp1 <= 1 / 10 ^ 12) by (rewrite ulp1_val; lra).
  assert (EX : dot S S = vx S * vx S + vy S * vy S + vz S * vz S) by reflexivity. rewrite EX in D1. destruct (bounded_coord _ _ _ _ D1 ltac:(lra)) as (BX & BY & BZ).
  assert (CL : close (91/10 * ulp1) (val_vec raw) S) by (exact (conj R2 (conj R4 R6))).
  destruct HF as (_ & _ & W3 & _ & _ & U3 & _). destruct (axis_near n W3 U3) as ((_ & N1 & _) & (_ & N2 & _) & (_ & N3 & _)). cbn [pow] in N1, N2, N3. rewrite Rmult_1_r in N1, N2, N3.
  pose proof ulp1_pos as U0. pose proof (dot_close (val_vec n) _ _ _ CL N1 N2 N3 ltac:(lra)) as K1.
  pose proof (square_close _ _ _ R2 US ltac:(lra)) as Q1. pose proof (square_close _ _ _ R4 US ltac:(lra)) as Q2. pose proof (square_close _ _ _ R6 US ltac:(lra)) as Q3.
  assert (SZ : forall x r, Rabs (x - r) <= 91 / 10 * ulp1 -> Rabs r <= 1001 / 1000 -> Rabs x <= 2) by (intros x r G3 G4; pose proof (n_size _ _ _ _ G3 G4); lra).
  split; [|split].
  - assert (FW : forall (x : spec_float) r, finite_upto BIG x -> Rabs (val x - r) <= 91 / 10 * ulp1 -> Rabs r <= 1001 / 1000 -> finite_upto 2 x).
    { intros x r (G1' & G2' & _) G3 G4. split; [exact G1'|]. split; [exact G2'|]. exact (SZ _ _ G3 G4). }
    split; [exact (FW _ _ R1 R2 BX)|]. split; [exact (FW _ _ R3 R4 BY)|exact (FW _ _ R5 R6 BZ)].
  - unfold norm2. cbn [vx vy vz val_vec pt] in Q1, Q2, Q3. apply Rabs_le_inv in Q1, Q2, Q3, D1. apply Rabs_le. lra.
  - apply Rabs_le_inv in K1, D2. assert (33 / 10 * (91 / 10 * ulp1) <= / 2 ^ 40) by (rewrite ulp1_val; lra). apply Rabs_le. lra.
Qed.
Print Assumptions C103_hemisphere.
