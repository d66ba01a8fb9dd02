(** * Property C103, continued: the point drawn on a triangle, in double precision (samplers.rs:25-39 is `Float` throughout) *)
From Coq Require Import ZArith SpecFloat Reals Lra Lia Psatz List.
From Flocq Require Import Core BinarySingleNaN.
From Verif Require Import Num NumR NumSF SFBridge FloatOps FloatRound FloatError P_FloatUnit Geometry Samplers.
Open Scope R_scope.

Lemma lit_val (x : @F NumSF) m e : (x : spec_float) = S754_finite false m e -> SpecFloat.bounded 53 1024 m e = true -> 0 <= F2R (Float radix2 (Zpos m) e) <= BIG -> val x = F2R (Float radix2 (Zpos m) e) /\ finite_upto BIG x.
Proof.
  intros -> B H. assert (V : val (S754_finite false m e) = F2R (Float radix2 (Zpos m) e)) by reflexivity. split; [exact V|].
  split; [exact B|]. split; [reflexivity|]. rewrite V, Rabs_pos_eq; lra.
Qed.
Lemma tiny8_val : val (@TINY8 NumSF) = 6044629098073146 / 2 ^ 79 /\ finite_upto BIG (@TINY8 NumSF).
Proof.
  assert (V : F2R (Float radix2 6044629098073146 (-79)) = 6044629098073146 / 2 ^ 79) by (unfold F2R; cbn [Fnum Fexp]; cbn; lra).
  destruct (lit_val (@TINY8 NumSF) 6044629098073146 (-79) ltac:(vm_compute; reflexivity) eq_refl) as [H1 H2]; [rewrite V, BIG_val; lra|]. rewrite V in H1. split; assumption.
Qed.
Lemma rest8_val : val (@fsub NumSF f1 TINY8) = 9007199164668999 / 2 ^ 53 /\ finite_upto BIG (@fsub NumSF f1 TINY8).
Proof.
  assert (V : F2R (Float radix2 9007199164668999 (-53)) = 9007199164668999 / 2 ^ 53) by (unfold F2R; cbn [Fnum Fexp]; cbn; lra).
  destruct (lit_val (@fsub NumSF f1 TINY8) 9007199164668999 (-53) ltac:(vm_compute; reflexivity) eq_refl) as [H1 H2]; [rewrite V, BIG_val; lra|]. rewrite V in H1. split; assumption.
Qed.
Lemma clamp8 (x : @F NumSF) : finite_upto BIG x -> let t := fclamp x TINY8 (fsub f1 TINY8) in
  finite_upto BIG t /\ 0 < val t < 1 /\ / 2 ^ 27 <= val t /\ (Rabs (val t - Rmin 1 (Rmax 0 (val x))) <= 2 / 10 ^ 8).
Proof.
  intros FX. destruct tiny8_val as [T1 T2]. destruct rest8_val as [T3 T4]. cbv zeta. unfold fclamp.
  rewrite (ltb_val _ _ _ FX T2), (ltb_val _ _ _ T4 FX), T1, T3.
  destruct (Rlt_bool_spec (val x) (6044629098073146 / 2 ^ 79)) as [A|A]; [|destruct (Rlt_bool_spec (9007199164668999 / 2 ^ 53) (val x)) as [B|B]].
  - rewrite T1. split; [exact T2|]. split; [lra|]. split; [lra|]. unfold Rmin, Rmax. destruct (Rle_dec 0 (val x)); destruct (Rle_dec 1 _); apply Rabs_le; lra.
  - rewrite T3. split; [exact T4|]. split; [lra|]. split; [lra|]. unfold Rmin, Rmax. destruct (Rle_dec 0 (val x)); destruct (Rle_dec 1 _); apply Rabs_le; lra.
  - split; [exact FX|]. split; [lra|]. split; [lra|]. unfold Rmin, Rmax. destruct (Rle_dec 0 (val x)); destruct (Rle_dec 1 _); apply Rabs_le; lra.
Qed.
Lemma one64 : val (@f1 NumSF) = 1 /\ finite_upto BIG (@f1 NumSF).
Proof.
  assert (V : val (@f1 NumSF) = 1). { unfold val, SF2R. change (@f1 NumSF) with (S754_finite false 4503599627370496 (-52)). unfold F2R. cbn [Fnum Fexp cond_Zopp]. cbn. lra. }
  split; [exact V|]. split; [reflexivity|]. split; [reflexivity|]. rewrite V, BIG_val, Rabs_pos_eq; lra.
Qed.

(** the finite point [p] has coordinates up to [L] *)
Definition point64 (L : R) (p : @Vec NumSF) : Prop := finite_upto L (vx p) /\ finite_upto L (vy p) /\ finite_upto L (vz p).
Section Coordinate.
  Variable L : R.
  Hypothesis L1 : 1 <= L.
  Hypothesis L2 : L <= 1024.
  Lemma coord x : finite_upto L x -> near L 1 1 0 x (val x).
  Proof. intros H. apply near_exact; [apply (finite_weaken _ _ _ H); rewrite BIG_val; lra|]. rewrite pow_1. destruct H as (_ & _ & H). lra. Qed.
  Lemma one_coordinate (a b c u v : @F NumSF) ru rv : finite_upto L a -> finite_upto L b -> finite_upto L c -> near L 0 1 (32/10) u ru -> near L 0 1 (23/10) v rv ->
    let r := val a + ru * (val b - val a) + rv * (val c - val a) in
    let p := @fadd NumSF (@fadd NumSF a (@fmul NumSF (@fsub NumSF b a) u)) (@fmul NumSF (@fsub NumSF c a) v) in
    finite_upto BIG p /\ Rabs (val p - r) <= 28 / 2 ^ 53 * L.
  Proof.
    intros HA HB HC HU HV. cbv zeta.
    assert (B1 : near L 1 2 (21/10) (@fsub NumSF b a) (val b - val a)) by (apply near_sub with (m1 := 1) (c1 := 0) (m2 := 1) (c2 := 0); try apply coord; try assumption; try lra; lia).
    assert (C1 : near L 1 2 (21/10) (@fsub NumSF c a) (val c - val a)) by (apply near_sub with (m1 := 1) (c1 := 0) (m2 := 1) (c2 := 0); try apply coord; try assumption; try lra; lia).
    assert (B2 : near L (1 + 0) 2 (106/10) (@fmul NumSF (@fsub NumSF b a) u) ((val b - val a) * ru)).
    { apply near_mul with (m1 := 2) (c1 := 21/10) (m2 := 1) (c2 := 32/10); try assumption; try lra; lia. }
    assert (C2 : near L (1 + 0) 2 (88/10) (@fmul NumSF (@fsub NumSF c a) v) ((val c - val a) * rv)).
    { apply near_mul with (m1 := 2) (c1 := 21/10) (m2 := 1) (c2 := 23/10); try assumption; try lra; lia. }
    assert (S1 : near L (1 + 0) 3 (137/10) (@fadd NumSF a (@fmul NumSF (@fsub NumSF b a) u)) (val a + (val b - val a) * ru)).
    { apply near_add with (m1 := 1) (c1 := 0) (m2 := 2) (c2 := 106/10); try assumption; try lra; try lia. apply coord; assumption. }
    assert (S2 : near L (1 + 0) 5 28 (@fadd NumSF (@fadd NumSF a (@fmul NumSF (@fsub NumSF b a) u)) (@fmul NumSF (@fsub NumSF c a) v)) (val a + (val b - val a) * ru + (val c - val a) * rv)).
    { apply near_add with (m1 := 3) (c1 := 137/10) (m2 := 2) (c2 := 88/10); try assumption; try lra; lia. }
    destruct S2 as (F1 & _ & F2). split; [exact F1|]. rewrite (Rmult_comm ru), (Rmult_comm rv). replace (28 / 2 ^ 53 * L) with (28 * ulp1 * L ^ (1 + 0)) by (rewrite ulp1_val; cbn [Nat.add pow]; field). exact F2.
  Qed.
End Coordinate.

(** Whatever the draws, the point is within 28 units in the last place (of the triangle's greatest coordinate) of a point of the triangle *)
Theorem C103_triangle : forall (L : R) (rand1 rand2 : @F NumSF) (a b c : @Vec NumSF), 1 <= L <= 1024 ->
  finite_upto BIG rand1 -> finite_upto BIG rand2 -> point64 L a -> point64 L b -> point64 L c ->
  let p := uniform_sample_triangle rand1 rand2 a b c in
  exists u v, 0 <= u /\ 0 <= v /\ u + v <= 1 /\ point64 BIG p /\
    Rabs (val (vx p) - (val (vx a) + u * (val (vx b) - val (vx a)) + v * (val (vx c) - val (vx a)))) <= 28 / 2 ^ 53 * L /\
    Rabs (val (vy p) - (val (vy a) + u * (val (vy b) - val (vy a)) + v * (val (vy c) - val (vy a)))) <= 28 / 2 ^ 53 * L /\
    Rabs (val (vz p) - (val (vz a) + u * (val (vz b) - val (vz a)) + v * (val (vz c) - val (vz a)))) <= 28 / 2 ^ 53 * L.
Proof.
  intros L r1 r2 a b c [L1 L2] F1 F2 (A1 & A2 & A3) (B1 & B2 & B3) (C1 & C2 & C3) p. unfold p, uniform_sample_triangle. clear p. cbv zeta.
  destruct (clamp8 r1 F1) as (T1 & T2 & T3 & _). destruct (clamp8 r2 F2) as (S1 & S2 & _ & _).
  set (t1 := fclamp r1 (@TINY8 NumSF) (fsub f1 TINY8)) in *. set (t2 := fclamp r2 (@TINY8 NumSF) (fsub f1 TINY8)) in *. clearbody t1 t2.
  set (w := sqrt (val t1)). assert (W : 0 < w < 1). { split; [apply sqrt_lt_R0; lra|]. unfold w. rewrite <- sqrt_1. apply sqrt_lt_1; lra. }
  assert (NA : near L 0 1 (11/10) (@fsqrt NumSF t1) w).
  { destruct (sqrt_val 90 t1 ltac:(lia)) as [V FS]; [apply (finite_weaken _ _ _ T1); rewrite BIG_val; cbn; lra|lra| |].
    { fold w. apply Rle_trans with 1; [lra|cbn; lra]. }
    split; [apply (finite_weaken _ _ _ FS); rewrite BIG_val; cbn; lra|]. cbn [pow]. split; [rewrite Rabs_pos_eq; lra|]. rewrite V. fold w.
    pose proof (rnd_near w) as RN. rewrite (Rabs_pos_eq w) in RN by lra. pose proof ulp1_pos. nra. }
  destruct one64 as [O1 O2].
  assert (NO : near L 0 1 0 (@f1 NumSF) 1). { rewrite <- O1 at 2. apply near_exact; [exact O2|]. rewrite O1. cbn [pow]. rewrite Rabs_pos_eq; lra. }
  assert (NU : near L 0 1 (32/10) (@fsub NumSF f1 (@fsqrt NumSF t1)) (1 - w)).
  { assert (N : near L 0 2 (32/10) (@fsub NumSF f1 (@fsqrt NumSF t1)) (1 - w)) by (apply (near_sub L L1 L2 0 1 0 1 (11/10)); try assumption; try lra; lia).
    destruct N as (N1 & _ & N3). split; [exact N1|]. split; [cbn [pow]; rewrite Rabs_pos_eq; lra|exact N3]. }
  assert (NT : near L 0 1 0 t2 (val t2)). { apply near_exact; [exact S1|]. cbn [pow]. rewrite Rabs_pos_eq; lra. }
  assert (NV : near L (0 + 0) 1 (23/10) (@fmul NumSF t2 (@fsqrt NumSF t1)) (val t2 * w)) by (apply (near_mul L L1 L2 0 0 1 0 1 (11/10)); try assumption; try lra; lia).
  change (0 + 0)%nat with 0%nat in NV.
  exists (1 - w), (val t2 * w). split; [lra|]. split; [nra|]. split; [nra|]. unfold vadd, vscale, vsub. cbn [vx vy vz].
  destruct (one_coordinate L L1 L2 (vx a) (vx b) (vx c) _ _ _ _ A1 B1 C1 NU NV) as [X1 X2].
  destruct (one_coordinate L L1 L2 (vy a) (vy b) (vy c) _ _ _ _ A2 B2 C2 NU NV) as [Y1 Y2].
  destruct (one_coordinate L L1 L2 (vz a) (vz b) (vz c) _ _ _ _ A3 B3 C3 NU NV) as [Z1 Z2].
  split; [exact (conj X1 (conj Y1 Z1))|]. exact (conj X2 (conj Y2 Z2)).
Qed.
Print Assumptions C103_triangle.
Definition corner : @Vec NumSF := V3 f1 f0 f0.
Example C103_triangle_case : finite_upto BIG (@flit NumSF 1 4) /\ point64 2 corner.
Proof.
  destruct one64 as [O1 O2].
  assert (Q : val (@flit NumSF 1 4) = 1 / 4). { unfold val, SF2R. change (@flit NumSF 1 4) with (S754_finite false 4503599627370496 (-54)). unfold F2R. cbn [Fnum Fexp cond_Zopp]. cbn. lra. }
  split; [split; [reflexivity|split; [reflexivity|rewrite Q, BIG_val, Rabs_pos_eq; lra]]|].
  assert (Z : finite_upto 2 (@f0 NumSF)) by (split; [reflexivity|split; [reflexivity|cbn; rewrite Rabs_R0; lra]]).
  split; [|exact (conj Z Z)]. cbn [vx corner]. destruct O2 as (H1 & H2 & _). split; [exact H1|]. split; [exact H2|]. rewrite O1, Rabs_pos_eq; lra.
Qed.
