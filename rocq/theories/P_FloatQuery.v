(** * Property C98: the accelerated queries in the program's own arithmetic (binary64, every operation rounded) *)
From Coq Require Import ZArith SpecFloat Reals Lra Lia Psatz Permutation List.
From Flocq Require Import Core BinarySingleNaN Relative.
From Verif Require Import Num NumR NumSF SFBridge FloatOps FloatRound FloatError Geometry Triangle SpecGeom TriangleProofs P_Exact
  Ray Bvh BvhProofs BvhOrder BvhExamples P_Bvh SceneProofs BvhFloat P_Float P_FloatHit P_FloatUnit FloatBoxes FloatSlab.
Import ListNotations.
#[local] Existing Instance Hprec.
#[local] Existing Instance Hmax.
#[local] Existing Instance valid64.
Open Scope R_scope.

(** ** the length of the way from the origin of the ray to the point found *)
Definition point_finite (p : VecF) : Prop := finite_upto BIG (vx p) /\ finite_upto BIG (vy p) /\ finite_upto BIG (vz p).
Lemma sqrt_close (a D k : R) : 0 <= D -> 0 <= k <= 1 -> Rabs (a - D) <= k * D -> 0 <= a /\ Rabs (sqrt a - sqrt D) <= k * sqrt D.
Proof.
  intros HD HK H. apply Rabs_le_inv in H. assert (A0 : 0 <= a) by nra. split; [exact A0|].
  pose proof (sqrt_pos a) as SA. pose proof (sqrt_pos D) as SD. pose proof (sqrt_sqrt a A0) as QA. pose proof (sqrt_sqrt D HD) as QD.
  set (x := sqrt a) in *. set (y := sqrt D) in *. clearbody x y. subst a. subst D.
  assert (A1 : x <= (1 + k) * y).
  { apply Rsqr_incr_0_var; [unfold Rsqr|nra]. assert (0 <= k * (y * y)) by nra. assert (0 <= k * k * (y * y)) by nra. nra. }
  assert (A2 : (1 - k) * y <= x).
  { apply Rsqr_incr_0_var; [unfold Rsqr|exact SA]. assert (0 <= (1 - k) * k * (y * y)) by (apply Rmult_le_pos; nra). nra. }
  apply Rabs_le. lra.
Qed.
Lemma norm_unit (d : VecR) m : 0 <= m <= 1 -> Rabs (dot d d - 1) <= m -> Rabs (norm d - 1) <= m.
Proof.
  intros HM H. destruct (norm_square d) as [N0 N1]. change (norm d * norm d = dot d d) in N1. rewrite <- N1 in H. apply Rabs_le_inv in H.
  set (n := norm d) in *. clearbody n. apply Rabs_le. split; nra.
Qed.
Lemma tiny_length (w : VecF) : (forall B, B = bpow radix2 (-400) -> finite_upto B (vx w) /\ finite_upto B (vy w) /\ finite_upto B (vz w)) ->
  finite_upto (bpow radix2 (-798)) (@vlen2 NumSF w) /\ 0 <= val (@vlen2 NumSF w) <= bpow radix2 (-798).
Proof.
  intros H. destruct (H _ eq_refl) as (X & Y & Z). clear H.
  assert (M : forall a, finite_upto (bpow radix2 (-400)) a -> finite_upto (bpow radix2 (-800)) (@fmul NumSF a a) /\ 0 <= val (@fmul NumSF a a)).
  { intros a FA. assert (B : Rabs (val a * val a) <= bpow radix2 (-800)).
    { replace (bpow radix2 (-800)) with (bpow radix2 (-400) * bpow radix2 (-400)) by (rewrite <- bpow_plus; reflexivity). rewrite Rabs_mult. apply Rmult_le_compat; try apply Rabs_pos; apply FA. }
    destruct (mul_val (-800) ltac:(lia) _ _ a a FA FA B) as [V FM]. split; [exact FM|]. rewrite V, <- (rnd_int 0 ltac:(lia)). apply rnd_le. nra. }
  assert (P : forall k a b, (-900 <= k <= 0)%Z -> finite_upto (bpow radix2 k) a -> finite_upto (bpow radix2 k) b -> 0 <= val a -> 0 <= val b ->
    finite_upto (bpow radix2 (k + 1)) (@fadd NumSF a b) /\ 0 <= val (@fadd NumSF a b)).
  { intros k a b Hk FA FB A0 B0. assert (B : Rabs (val a + val b) <= bpow radix2 (k + 1)).
    { replace (bpow radix2 (k + 1)) with (bpow radix2 k + bpow radix2 k) by (rewrite bpow_plus; change (bpow radix2 1) with 2; ring).
      refine (Rle_trans _ _ _ (Rabs_triang _ _) _). apply Rplus_le_compat; [apply FA|apply FB]. }
    destruct (add_val (k + 1) ltac:(lia) _ a b FA FB B) as [V FM]. split; [exact FM|]. rewrite V, <- (rnd_int 0 ltac:(lia)). apply rnd_le. cbn. lra. }
  destruct (M _ X) as [FX X0]. destruct (M _ Y) as [FY Y0]. destruct (M _ Z) as [FZ Z0].
  destruct (P (-800)%Z _ _ ltac:(lia) FX FY X0 Y0) as [FS S0]. cbn [Z.add Z.pos_sub Pos.pred_double Z.pred_double] in FS.
  destruct (P (-799)%Z _ _ ltac:(lia) FS (finite_weaken _ _ _ FZ (bpow_le radix2 (-800) (-799) ltac:(lia))) S0 Z0) as [FT T0].
  change (finite_upto (bpow radix2 (-798)) (@vlen2 NumSF w)) in FT. change (0 <= val (@vlen2 NumSF w)) in T0. split; [exact FT|]. split; [exact T0|].
  destruct FT as (_ & _ & FT). rewrite Rabs_pos_eq in FT by exact T0. exact FT.
Qed.
Lemma distance L (ray : RayF) (p : VecF) s e : 1 <= L <= 1024 -> within L (origin ray) -> within 2 (direction ray) ->
  Rabs (dot (val_vec (direction ray)) (val_vec (direction ray)) - 1) <= / 2 ^ 50 -> point_finite p -> Rabs s <= 4 * L -> 0 < e < 1 / 50 -> ulp1 <= 236 / 10000 * e ->
  close (2 * L * e) (val_vec p) (along (val_ray ray) s) ->
  let t2 := @vlen2 NumSF (vsub p (origin ray)) in
  finite_upto (bpow radix2 802) t2 /\ 0 <= val t2 /\ Rabs (sqrt (val t2) - Rabs s) <= 5 * L * e.
Proof.
  intros HL HO HD HU HP HS HE UE HC t2. set (w := vsub p (origin ray)) in *. pose proof ulp1_pos as U0.
  destruct (direction_near L _ HD ltac:(lra)) as ((_ & N1 & _) & (_ & N2 & _) & (_ & N3 & _)). cbn [vx vy vz val_vec pt pow] in N1, N2, N3. rewrite Rmult_1_r in N1, N2, N3.
  assert (U1 : ulp1 <= 1 / 4000000000000000) by (rewrite ulp1_val; lra).
  assert (LE : 0 < L * e) by (apply Rmult_lt_0_compat; lra). assert (LE2 : L * e <= L / 50) by (assert (L * e <= L * (1 / 50)) by (apply Rmult_le_compat_l; lra); lra).
  assert (ULE : ulp1 * L <= 236 / 10000 * (L * e)) by (apply (Rmult_le_compat_r L) in UE; lra).
  (* one coordinate of the difference *)
  assert (W : forall a o d, finite_upto BIG a -> finite_upto L o -> Rabs (val d) <= 1001 / 1000 -> Rabs (val a - (val o + s * val d)) <= 2 * L * e ->
    finite_upto (bpow radix2 13) (@fsub NumSF a o) /\ Rabs (val (@fsub NumSF a o) - s * val d) <= 21 / 10 * (L * e)).
  { intros a o d FA FO HDD HA.
    assert (SD : Rabs (s * val d) <= 4004 / 1000 * L). { rewrite Rabs_mult. apply Rle_trans with (4 * L * (1001 / 1000)); [apply Rmult_le_compat; try apply Rabs_pos; assumption|lra]. }
    assert (B : Rabs (val a - val o) <= 41 / 10 * L).
    { replace (val a - val o) with ((val a - (val o + s * val d)) + s * val d) by ring. refine (Rle_trans _ _ _ (Rabs_triang _ _) _). lra. }
    assert (FO' : finite_upto BIG o) by (apply (finite_weaken _ _ _ FO); rewrite BIG_val; lra).
    destruct (sub_val 13 ltac:(lia) BIG _ _ FA FO' ltac:(change (bpow radix2 13) with 8192; lra)) as [V FS].
    split; [exact FS|]. rewrite V. pose proof (rnd_near (val a - val o)) as RN.
    replace (rnd64 (val a - val o) - s * val d) with ((rnd64 (val a - val o) - (val a - val o)) + (val a - (val o + s * val d))) by ring.
    refine (Rle_trans _ _ _ (Rabs_triang _ _) _). assert (ulp1 * Rabs (val a - val o) <= ulp1 * (41 / 10 * L)) by (apply Rmult_le_compat_l; lra).
    assert (ulp1 * 1 <= ulp1 * L) by (apply Rmult_le_compat_l; lra). lra. }
  destruct HP as (P1 & P2 & P3). destruct HO as (O1 & O2 & O3). destruct HC as (C1 & C2 & C3).
  unfold along, plus, times, pt, val_ray, val_vec in C1, C2, C3. cbn [vx vy vz origin direction pt] in C1, C2, C3.
  destruct (W _ _ _ P1 O1 N1 C1) as [FX EX]. destruct (W _ _ _ P2 O2 N2 C2) as [FY EY]. destruct (W _ _ _ P3 O3 N3 C3) as [FZ EZ]. clear W.
  change (@fsub NumSF (vx p) (vx (origin ray))) with (vx w) in *. change (@fsub NumSF (vy p) (vy (origin ray))) with (vy w) in *. change (@fsub NumSF (vz p) (vz (origin ray))) with (vz w) in *.
  (* the exact length of the computed difference *)
  set (d := val_vec (direction ray)) in *. pose proof (norm_unit d (/ 2 ^ 50) ltac:(lra) HU) as ND.
  pose proof (norm_small (minus (val_vec w) (times s d)) (21 / 10 * (L * e)) ltac:(lra) EX EY EZ) as NS. pose proof (reverse_triangle (val_vec w) (times s d)) as RT. rewrite norm_scaled in RT.
  assert (SN : Rabs (Rabs s * norm d - Rabs s) <= 76 / 100 * (L * e)).
  { replace (Rabs s * norm d - Rabs s) with (Rabs s * (norm d - 1)) by ring. rewrite Rabs_mult, Rabs_Rabsolu.
    apply Rle_trans with (4 * L * / 2 ^ 50); [apply Rmult_le_compat; try apply Rabs_pos; assumption|]. rewrite ulp1_val in ULE. lra. }
  assert (WN : Rabs (norm (val_vec w) - Rabs s) <= 441 / 100 * (L * e)).
  { replace (norm (val_vec w) - Rabs s) with ((norm (val_vec w) - Rabs s * norm d) + (Rabs s * norm d - Rabs s)) by ring. refine (Rle_trans _ _ _ (Rabs_triang _ _) _). lra. }
  assert (WU : norm (val_vec w) <= 41 / 10 * L) by (apply Rabs_le_inv in WN; lra).
  assert (F4 : forall x, finite_upto (bpow radix2 13) x -> finite_upto (bpow radix2 400) x) by (intros x Q; apply (finite_weaken _ _ _ Q), bpow_le; lia).
  destruct (norm_square (val_vec w)) as [NW0 NWQ].
  assert (G : Rabs (sqrt (val t2) - norm (val_vec w)) <= 59 / 100 * (L * e) /\ 0 <= val t2 /\ finite_upto (bpow radix2 802) t2).
  { assert (SZ : sizeable w \/ ~ sizeable w).
    { unfold sizeable. destruct (Rle_or_lt (bpow radix2 (-400)) (Rabs (val (vx w)))) as [S1|S1]; [left; exact (conj (F4 _ FX) (conj (F4 _ FY) (conj (F4 _ FZ) (or_introl S1))))|].
      destruct (Rle_or_lt (bpow radix2 (-400)) (Rabs (val (vy w)))) as [S2|S2]; [left; exact (conj (F4 _ FX) (conj (F4 _ FY) (conj (F4 _ FZ) (or_intror (or_introl S2)))))|].
      destruct (Rle_or_lt (bpow radix2 (-400)) (Rabs (val (vz w)))) as [S3|S3]; [left; exact (conj (F4 _ FX) (conj (F4 _ FY) (conj (F4 _ FZ) (or_intror (or_intror S3)))))|].
      right. intros (_ & _ & _ & [Q|[Q|Q]]); lra. }
    destruct SZ as [SZ|SZ].
    - destruct (len2_near w SZ) as [FT ET]. change (@vlen2 NumSF w) with t2 in FT, ET.
      assert (D0 : 0 <= val (vx w) * val (vx w) + val (vy w) * val (vy w) + val (vz w) * val (vz w)).
      { pose proof (Rle_0_sqr (val (vx w))) as Q1. pose proof (Rle_0_sqr (val (vy w))) as Q2. pose proof (Rle_0_sqr (val (vz w))) as Q3. unfold Rsqr in *. lra. }
      destruct (sqrt_close (val t2) _ (301 / 100 * ulp1) D0 ltac:(lra) ET) as [T0 TS].
      change (sqrt (val (vx w) * val (vx w) + val (vy w) * val (vy w) + val (vz w) * val (vz w))) with (norm (val_vec w)) in TS.
      split; [|split; [exact T0|exact FT]]. refine (Rle_trans _ _ _ TS _).
      assert (301 / 100 * ulp1 * norm (val_vec w) <= 301 / 100 * ulp1 * (41 / 10 * L)) by (apply Rmult_le_compat_l; lra). lra.
    - assert (SM : forall x, finite_upto (bpow radix2 13) x -> Rabs (val x) < bpow radix2 (-400) -> finite_upto (bpow radix2 (-400)) x) by (intros x (Q1 & Q2 & _) Q; split; [exact Q1|split; [exact Q2|lra]]).
      assert (S1 : Rabs (val (vx w)) < bpow radix2 (-400)) by (apply Rnot_le_lt; intros Q; apply SZ; unfold sizeable; exact (conj (F4 _ FX) (conj (F4 _ FY) (conj (F4 _ FZ) (or_introl Q))))).
      assert (S2 : Rabs (val (vy w)) < bpow radix2 (-400)) by (apply Rnot_le_lt; intros Q; apply SZ; unfold sizeable; exact (conj (F4 _ FX) (conj (F4 _ FY) (conj (F4 _ FZ) (or_intror (or_introl Q)))))).
      assert (S3 : Rabs (val (vz w)) < bpow radix2 (-400)) by (apply Rnot_le_lt; intros Q; apply SZ; unfold sizeable; exact (conj (F4 _ FX) (conj (F4 _ FY) (conj (F4 _ FZ) (or_intror (or_intror Q)))))).
      destruct (tiny_length w) as [FT [T0 T1]].
      { intros B ->. exact (conj (SM _ FX S1) (conj (SM _ FY S2) (SM _ FZ S3))). }
      change (@vlen2 NumSF w) with t2 in FT, T0, T1. split; [|split; [exact T0|apply (finite_weaken _ _ _ FT), bpow_le; lia]].
      pose proof (norm_small (val_vec w) (bpow radix2 (-400)) (bpow_ge_0 _ _) (Rlt_le _ _ S1) (Rlt_le _ _ S2) (Rlt_le _ _ S3)) as NT.
      assert (T2 : sqrt (val t2) <= bpow radix2 (-399)).
      { replace (bpow radix2 (-399)) with (sqrt (bpow radix2 (-798))); [apply sqrt_le_1_alt; exact T1|].
        replace (bpow radix2 (-798)) with (bpow radix2 (-399) * bpow radix2 (-399)) by (rewrite <- bpow_plus; reflexivity). apply sqrt_square, bpow_ge_0. }
      pose proof (sqrt_pos (val t2)). assert (bpow radix2 (-399) <= bpow radix2 (-60)) by (apply bpow_le; lia). assert (bpow radix2 (-400) <= bpow radix2 (-60)) by (apply bpow_le; lia).
      assert (BB : bpow radix2 (-60) <= ulp1 / 100) by (rewrite ulp1_val; cbn; lra). assert (ulp1 * 1 <= ulp1 * L) by (apply Rmult_le_compat_l; lra).
      apply Rabs_le. split; lra. }
  destruct G as (G1 & G2 & G3). split; [exact G3|]. split; [exact G2|].
  replace (sqrt (val t2) - Rabs s) with ((sqrt (val t2) - norm (val_vec w)) + (norm (val_vec w) - Rabs s)) by ring. refine (Rle_trans _ _ _ (Rabs_triang _ _) _). lra.
Qed.

(** ** one triangle *)
Lemma test_point (ray : RayF) (t : TriF) p x y : @baricentric_coordinates NumSF ray t = Some (p, x, y) -> p = @project NumSF ray (q_s t ray).
Proof.
  rewrite test_steps. destruct (fltb (fabs (c_a ray t)) TINY5); [discriminate|]. destruct (negb _); [discriminate|]. destruct (orb _ _); [discriminate|].
  destruct (fltb TINY5 (q_s t ray)); [|discriminate]. intros H. clear -H. injection H as H1 H2 H3. symmetry. exact H1.
Qed.
Lemma projection L (ray : RayF) (q : @F NumSF) : 1 <= L <= 1024 -> within L (origin ray) -> within 2 (direction ray) ->
  Rabs (dot (val_vec (direction ray)) (val_vec (direction ray)) - 1) <= 1 / 1000 -> finite_upto (5 * L) q ->
  point_finite (@project NumSF ray q) /\ close (12 * (ulp1 * L)) (val_vec (@project NumSF ray q)) (along (val_ray ray) (val q)).
Proof.
  intros [L1 L2] (O1 & O2 & O3) HD HU FQ. destruct (direction_near L _ HD HU) as (N1 & N2 & N3). cbn [vx vy vz val_vec pt] in N1, N2, N3.
  assert (W : forall o d, finite_upto L o -> near L 0 (1001/1000) 0 d (val d) -> finite_upto BIG (@fadd NumSF o (@fmul NumSF d q)) /\
    Rabs (val (@fadd NumSF o (@fmul NumSF d q)) - (val o + val q * val d)) <= 12 * (ulp1 * L)).
  { intros o d FO ND.
    assert (NW : near L 1 5 0 q (val q)) by (apply near_exact; [eapply finite_weaken; [exact FQ|rewrite BIG_val; lra]|rewrite pow_1; apply FQ]).
    assert (NO : near L 1 1 0 o (val o)) by (apply near_exact; [eapply finite_weaken; [exact FO|rewrite BIG_val; lra]|rewrite pow_1, Rmult_1_l; apply FO]).
    assert (NM : near L 1 (501/100) (502/100) (@fmul NumSF d q) (val d * val q)) by (apply (near_mul L L1 L2 0 1 (1001/1000) 0 5 0 _ _ _ _ _ _ ND NW); first [lia|lra]).
    assert (NP : near L 1 (601/100) (1104/100) (@fadd NumSF o (@fmul NumSF d q)) (val o + val d * val q)).
    { apply (near_add L L1 L2 1 1 0 (501/100) (502/100) _ _ _ _ _ _ NO NM); first [lia|lra]. }
    destruct NP as (FP & _ & NP). rewrite pow_1 in NP. split; [exact FP|]. rewrite (Rmult_comm (val q)). pose proof ulp1_pos. assert (0 <= ulp1 * L) by (apply Rmult_le_pos; lra). lra. }
  destruct (W _ _ O1 N1) as [F1 E1]. destruct (W _ _ O2 N2) as [F2 E2]. destruct (W _ _ O3 N3) as [F3 E3].
  split; [exact (conj F1 (conj F2 F3))|]. unfold close, project, vadd, vscale, val_vec, along, plus, times, pt, val_ray. cbn [vx vy vz origin direction val_vec pt].
  exact (conj E1 (conj E2 E3)).
Qed.
(** the vocabulary: a ray's exact line crosses the triangle's plane at parameter s, in a point that is in the triangle
    except for the blur; or that is in the triangle by more than the blur *)
Definition nearly_crosses (L : R) (ray : RayF) (t : TriF) (s : R) : Prop := let e := blur L ray t in 0 < e < 1 / 50 /\
  exists u v, along (val_ray ray) s = bary (val_tri t) u v /\ - e <= u /\ - e <= v /\ u + v <= 1 + e.
Definition clearly_crosses (L : R) (ray : RayF) (t : TriF) (s : R) : Prop := let e := blur L ray t in
  1 / 100000 + L * L / 2 ^ 43 <= Rabs (volume (val_ray ray) (val_tri t)) /\
  exists u v, along (val_ray ray) s = bary (val_tri t) u v /\ e <= u /\ e <= v /\ u + v <= 1 - e.
Definition unit64 (ray : RayF) : Prop := Rabs (dot (val_vec (direction ray)) (val_vec (direction ray)) - 1) <= / 2 ^ 50.
Definition length2 (ray : RayF) (p : VecF) : @F NumSF := @vlen2 NumSF (vsub p (origin ray)).

Lemma point_distance L (t : TriF) (ray : RayF) s u v p x y : at_scale L t ray -> unit64 ray -> @baricentric_coordinates NumSF ray t = Some (p, x, y) ->
  let e := blur L ray t in 0 < e < 1 / 50 -> along (val_ray ray) s = bary (val_tri t) u v -> - e <= u -> - e <= v -> u + v <= 1 + e ->
  close (2 * L * e) (val_vec p) (along (val_ray ray) s) ->
  Rabs s <= 4 * L /\ ulp1 <= 236 / 10000 * e /\ finite_upto (bpow radix2 802) (length2 ray p) /\ 0 <= val (length2 ray p) /\ Rabs (sqrt (val (length2 ray p)) - Rabs s) <= 5 * L * e.
Proof.
  intros HS HU HB e HE EX H1 H2 H3 HC.
  assert (HI : triangle_intersect t ray = Some (new_info t p x y (direction ray))) by (unfold triangle_intersect; rewrite HB; reflexivity).
  pose proof (hit_volume L t ray _ HS HI) as HV. destruct (cramer_conv _ _ _ _ _ EX) as (E1 & E2 & E3).
  assert (V0 : volume (val_ray ray) (val_tri t) <> 0) by (intros Q; rewrite Q, Rabs_R0 in HV; lra).
  assert (Hu : num_u (val_ray ray) (val_tri t) / volume (val_ray ray) (val_tri t) = u) by (rewrite E1; field; exact V0).
  assert (Hv : num_v (val_ray ray) (val_tri t) / volume (val_ray ray) (val_tri t) = v) by (rewrite E2; field; exact V0).
  assert (Hs : num_s (val_ray ray) (val_tri t) / volume (val_ray ray) (val_tri t) = s) by (rewrite E3; field; exact V0).
  pose proof (reach L t ray HS HV) as RC. rewrite Hu, Hv, Hs in RC. specialize (RC ltac:(lra) ltac:(lra) ltac:(lra)).
  pose proof (parameter L t ray HS HV) as PM. rewrite Hs in PM. destruct (PM RC) as [FQ _]. clear PM.
  pose proof (KR L t ray HS HV) as [_ K2]. pose proof (blur_K L t ray HV) as EB. fold e in EB. 
  set (K := ulp1 * L ^ 2 / Rabs (volume (val_ray ray) (val_tri t))) in *. assert (UE : ulp1 <= 236 / 10000 * e) by lra.
  destruct HS as (HL & _ & _ & _ & HO & HD & HU'). destruct (projection L ray _ HL HO HD HU' FQ) as [FP _]. rewrite <- (test_point _ _ _ _ _ HB) in FP.
  split; [exact RC|]. split; [exact UE|]. exact (distance L ray p s e HL HO HD HU FP RC HE UE HC).
Qed.
Lemma found_crossing L (t : TriF) (ray : RayF) p x y : at_scale L t ray -> unit64 ray -> @baricentric_coordinates NumSF ray t = Some (p, x, y) ->
  let e := blur L ray t in let t2 := length2 ray p in ulp1 <= 236 / 10000 * e /\
  exists s, nearly_crosses L ray t s /\ 1 / 100000 - 2 * L * e < s /\ Rabs s <= 4 * L /\ finite_upto (bpow radix2 802) t2 /\ 0 <= val t2 /\ Rabs (sqrt (val t2) - Rabs s) <= 5 * L * e.
Proof.
  intros HS HU HB e t2.
  assert (HI : triangle_intersect t ray = Some (new_info t p x y (direction ray))) by (unfold triangle_intersect; rewrite HB; reflexivity).
  destruct (C95_hit_sound L t ray _ HS HI) as (HE & s & u & v & EX & H1 & H2 & H3 & H4 & _ & _ & HC). fold e in HE, H1, H2, H3, H4, HC.
  assert (IP : i_p (new_info t p x y (direction ray)) = p) by (unfold new_info; cbv zeta; destruct (get_side _ _); reflexivity). rewrite IP in HC.
  destruct (point_distance L t ray s u v p x y HS HU HB HE EX H1 H2 H3 HC) as (Q1 & Q2 & Q3 & Q4 & Q5).
  split; [exact Q2|]. exists s. split; [split; [exact HE|exists u, v; auto]|]. split; [exact H4|]. split; [exact Q1|]. exact (conj Q3 (conj Q4 Q5)).
Qed.
Lemma blur_positive L (t : TriF) ray : 1 <= L -> 1 / 100000 + L * L / 2 ^ 43 <= Rabs (volume (val_ray ray) (val_tri t)) -> 0 < blur L ray t.
Proof. intros HL HV. assert (0 <= L * L) by nra. unfold blur. apply Rdiv_lt_0_compat; nra. Qed.
Lemma crossing_found L (t : TriF) (ray : RayF) s : at_scale L t ray -> unit64 ray -> clearly_crosses L ray t s ->
  let e := blur L ray t in 1 / 100000 + 2 * L * e <= s ->
  exists p x y, @baricentric_coordinates NumSF ray t = Some (p, x, y) /\ 0 < e < 1 / 50 /\
    finite_upto (bpow radix2 802) (length2 ray p) /\ 0 <= val (length2 ray p) /\ Rabs (sqrt (val (length2 ray p)) - s) <= 5 * L * e.
Proof.
  intros HS HU (HV & u & v & EX & H1 & H2 & H3) e H4. fold e in H1, H2, H3. pose proof (L_range _ _ _ HS) as LR.
  assert (E0 : 0 < e) by (apply blur_positive; [lra|exact HV]).
  destruct (C95_hit_complete L t ray s u v HS HV EX H1 H2 H3 H4) as (info & HI & _ & _ & HC). pose proof HI as HI'. unfold triangle_intersect in HI'.
  destruct (baricentric_coordinates ray t) as [[[p x] y]|] eqn:B; [|discriminate HI'].
  assert (IP : i_p info = p). { assert (Q : new_info t p x y (direction ray) = info) by (clear -HI'; congruence). rewrite <- Q. unfold new_info. cbv zeta. destruct (get_side _ _). reflexivity. }
  rewrite IP in HC. destruct (C95_hit_sound L t ray _ HS HI) as (HE & _). fold e in HE, HC.
  destruct (point_distance L t ray s u v p x y HS HU B HE EX ltac:(fold e; lra) ltac:(fold e; lra) ltac:(fold e; lra) HC) as (Q1 & Q2 & Q3 & Q4 & Q5). fold e in Q5.
  assert (LE : 0 < L * e) by (apply Rmult_lt_0_compat; lra). rewrite (Rabs_pos_eq s) in Q5 by lra.
  exists p, x, y. split; [reflexivity|]. split; [exact HE|]. exact (conj Q3 (conj Q4 Q5)).
Qed.
(** ** C95 - what a reported hit holds are numbers, not infinities or NaN *)
Theorem C95_hit_numbers : forall L (t : TriF) (ray : RayF) info, at_scale L t ray -> triangle_intersect t ray = Some info ->
  finite_upto 2 (i_u info) /\ finite_upto 2 (i_v info) /\ point_finite (i_p info) /\ point_finite (i_normal info).
Proof.
  intros L t ray info HS H. destruct (C95_hit_sound L t ray info HS H) as (HE & s & u & v & EX & H1 & H2 & H3 & H4 & HU & HV & HC). set (e := blur L ray t) in *.
  pose proof (hit_volume L t ray _ HS H) as HW. destruct (cramer_conv _ _ _ _ _ EX) as (E1 & E2 & E3).
  assert (V0 : volume (val_ray ray) (val_tri t) <> 0) by (intros Q; rewrite Q, Rabs_R0 in HW; lra).
  assert (Hu : num_u (val_ray ray) (val_tri t) / volume (val_ray ray) (val_tri t) = u) by (rewrite E1; field; exact V0).
  assert (Hv : num_v (val_ray ray) (val_tri t) / volume (val_ray ray) (val_tri t) = v) by (rewrite E2; field; exact V0).
  assert (Hs : num_s (val_ray ray) (val_tri t) / volume (val_ray ray) (val_tri t) = s) by (rewrite E3; field; exact V0).
  pose proof (reach L t ray HS HW) as RC. rewrite Hu, Hv, Hs in RC. specialize (RC ltac:(lra) ltac:(lra) ltac:(lra)).
  pose proof (parameter L t ray HS HW) as PM. rewrite Hs in PM. destruct (PM RC) as [FQ _]. clear PM.
  destruct (quotients L t ray HS HW) as ((FU & _) & (FV & _) & _).
  pose proof (normal_close L t ray HS HW) as (FN & _ & _).
  unfold triangle_intersect in H. destruct (baricentric_coordinates ray t) as [[[p x] y]|] eqn:B; [|discriminate H].
  assert (QI : new_info t p x y (direction ray) = info) by (clear -H; congruence). clear H.
  assert (PT : p = @project NumSF ray (q_s t ray) /\ x = q_u t ray /\ y = q_v t ray).
  { rewrite test_steps in B. destruct (fltb (fabs (c_a ray t)) TINY5); [discriminate|]. destruct (negb _); [discriminate|]. destruct (orb _ _); [discriminate|].
    destruct (fltb TINY5 (q_s t ray)); [|discriminate]. clear -B. injection B as B1 B2 B3. auto. }
  destruct PT as (PT & XT & YT).
  assert (I : i_p info = p /\ i_u info = x /\ i_v info = y) by (rewrite <- QI; unfold new_info; cbv zeta; destruct (get_side _ _); auto). destruct I as (I1 & I2 & I3).
  rewrite I2, XT in HU. rewrite I3, YT in HV. rewrite I1, I2, I3, XT, YT, PT.
  assert (U2 : Rabs (val (q_u t ray)) <= 2) by (apply Rabs_le_inv in HU; apply Rabs_le; lra). assert (V2 : Rabs (val (q_v t ray)) <= 2) by (apply Rabs_le_inv in HV; apply Rabs_le; lra).
  split; [exact (conj (proj1 FU) (conj (proj1 (proj2 FU)) U2))|]. split; [exact (conj (proj1 FV) (conj (proj1 (proj2 FV)) V2))|]. split.
  - destruct HS as (HL & _ & _ & _ & HO & HD & HU'). exact (proj1 (projection L ray _ HL HO HD HU' FQ)).
  - rewrite <- QI. unfold new_info. cbv zeta. unfold get_side. cbv zeta. destruct FN as (M1 & M2 & M3). assert (B2 : 2 <= BIG) by (rewrite BIG_val; lra).
    destruct (fltb _ f0); [|destruct (fltb f0 _)]; cbn [i_normal].
    + exact (conj (finite_weaken _ _ _ M1 B2) (conj (finite_weaken _ _ _ M2 B2) (finite_weaken _ _ _ M3 B2))).
    + exact (conj (proj2 (neg_one_mul _ _ M1 B2)) (conj (proj2 (neg_one_mul _ _ M2 B2)) (proj2 (neg_one_mul _ _ M3 B2)))).
    + exact (conj (finite_weaken _ _ _ M1 B2) (conj (finite_weaken _ _ _ M2 B2) (finite_weaken _ _ _ M3 B2))).
Qed.
Print Assumptions C95_hit_numbers.
(** the point stored with the hit *)
Lemma stored_point L (ray : RayF) s e (t2 : @F NumSF) : 1 <= L <= 1024 -> within L (origin ray) -> within 2 (direction ray) -> unit64 ray ->
  finite_upto (bpow radix2 802) t2 -> 0 < val t2 -> Rabs (sqrt (val t2) - Rabs s) <= 5 * L * e -> Rabs s <= 4 * L -> 0 < e < 1 / 50 -> - (2 * L * e) <= s -> ulp1 <= 236 / 10000 * e ->
  point_finite (@project NumSF ray (fsqrt t2)) /\ close (10 * L * e) (val_vec (@project NumSF ray (fsqrt t2))) (along (val_ray ray) s).
Proof.
  intros HL HO HD HU F2 P2 HT HS HE HN UE. pose proof ulp1_pos as U0. assert (U1 : ulp1 <= 1 / 4000000000000000) by (rewrite ulp1_val; lra).
  assert (LE : 0 < L * e) by (apply Rmult_lt_0_compat; lra). assert (LE2 : L * e <= L / 50) by (assert (L * e <= L * (1 / 50)) by (apply Rmult_le_compat_l; lra); lra).
  assert (ULE : ulp1 * L <= 236 / 10000 * (L * e)) by (apply (Rmult_le_compat_r L) in UE; lra).
  assert (SU : sqrt (val t2) <= 41 / 10 * L) by (apply Rabs_le_inv in HT; lra). pose proof (sqrt_pos (val t2)) as S0.
  assert (SB : sqrt (val t2) <= bpow radix2 802) by (apply Rle_trans with (bpow radix2 13); [change (bpow radix2 13) with 8192; lra|apply bpow_le; lia]).
  destruct (sqrt_val 802 _ ltac:(lia) F2 P2 SB) as [VQ FQ0]. set (q := @fsqrt NumSF t2) in *.
  pose proof (rnd_near (sqrt (val t2))) as RN. rewrite <- VQ, (Rabs_pos_eq _ S0) in RN.
  assert (UU : ulp1 * sqrt (val t2) <= ulp1 * (41 / 10 * L)) by (apply Rmult_le_compat_l; lra). assert (ulp1 * 1 <= ulp1 * L) by (apply Rmult_le_compat_l; lra).
  assert (RQ : Rabs (val q - sqrt (val t2)) <= 1 / 10 * (L * e)) by lra.
  assert (FQ : finite_upto (5 * L) q). { destruct FQ0 as (Q1 & Q2 & _). split; [exact Q1|]. split; [exact Q2|]. apply Rabs_le_inv in RQ. apply Rabs_le. lra. }
  assert (HU' : Rabs (dot (val_vec (direction ray)) (val_vec (direction ray)) - 1) <= 1 / 1000) by (unfold unit64 in HU; lra).
  destruct (projection L ray q HL HO HD HU' FQ) as [PF (C1 & C2 & C3)]. split; [exact PF|].
  destruct (direction_near L _ HD HU') as ((_ & N1 & _) & (_ & N2 & _) & (_ & N3 & _)). cbn [vx vy vz val_vec pt pow] in N1, N2, N3. rewrite Rmult_1_r in N1, N2, N3.
  assert (QS : Rabs (val q - s) <= 91 / 10 * (L * e)).
  { apply Rabs_le_inv in HT. apply Rabs_le_inv in RQ. destruct (Rle_or_lt 0 s) as [G|G]; [rewrite (Rabs_pos_eq s) in HT by lra|rewrite (Rabs_left s) in HT by lra]; apply Rabs_le; lra. }
  assert (T : forall a o d : R, Rabs (a - (o + val q * d)) <= 12 * (ulp1 * L) -> Rabs d <= 1001 / 1000 -> Rabs (a - (o + s * d)) <= 10 * L * e).
  { intros a o d H1 H2. replace (a - (o + s * d)) with ((a - (o + val q * d)) + (val q - s) * d) by ring. refine (Rle_trans _ _ _ (Rabs_triang _ _) _). rewrite Rabs_mult.
    assert (Rabs (val q - s) * Rabs d <= 91 / 10 * (L * e) * (1001 / 1000)) by (apply Rmult_le_compat; try apply Rabs_pos; assumption). lra. }
  exact (conj (T _ _ _ C1 N1) (conj (T _ _ _ C2 N2) (T _ _ _ C3 N3))).
Qed.

(** ** the constants of the queries *)
Lemma t7_float : (9999999 / 10 ^ 14 <= val (@MIN_T7 NumSF) <= 10000001 / 10 ^ 14) /\ finite_upto 1 (@MIN_T7 NumSF).
Proof.
  assert (E : (@MIN_T7 NumSF : spec_float) = S754_finite false 7555786372591432 (-76)) by (vm_compute; reflexivity). rewrite E.
  assert (V : val (S754_finite false 7555786372591432 (-76)) = 7555786372591432 / 2 ^ 76) by (unfold val, SF2R, F2R; cbn; lra).
  split; [rewrite V; lra|]. split; [vm_compute; reflexivity|]. split; [reflexivity|]. rewrite V, Rabs_pos_eq; lra.
Qed.
Lemma t6_float : (9999999 / 10 ^ 13 <= val (@MIN_T6 NumSF) <= 10000001 / 10 ^ 13) /\ finite_upto 1 (@MIN_T6 NumSF).
Proof.
  assert (E : (@MIN_T6 NumSF : spec_float) = S754_finite false 4722366482869645 (-72)) by (vm_compute; reflexivity). rewrite E.
  assert (V : val (S754_finite false 4722366482869645 (-72)) = 4722366482869645 / 2 ^ 72) by (unfold val, SF2R, F2R; cbn; lra).
  split; [rewrite V; lra|]. split; [vm_compute; reflexivity|]. split; [reflexivity|]. rewrite V, Rabs_pos_eq; lra.
Qed.
Lemma t4_float : (9999999 / 10 ^ 11 <= val (@flit NumSF 1 10000) <= 10000001 / 10 ^ 11) /\ finite_upto 1 (@flit NumSF 1 10000).
Proof.
  assert (E : (@flit NumSF 1 10000 : spec_float) = S754_finite false 7378697629483821 (-66)) by (vm_compute; reflexivity). rewrite E.
  assert (V : val (S754_finite false 7378697629483821 (-66)) = 7378697629483821 / 2 ^ 66) by (unfold val, SF2R, F2R; cbn; lra).
  split; [rewrite V; lra|]. split; [vm_compute; reflexivity|]. split; [reflexivity|]. rewrite V, Rabs_pos_eq; lra.
Qed.
Lemma fmax_float : finite_upto (bpow radix2 1024) (@FMAX NumSF) /\ bpow radix2 1000 < val (@FMAX NumSF).
Proof.
  assert (E : (@FMAX NumSF : spec_float) = S754_finite false 9007199254740991 971) by (vm_compute; reflexivity). rewrite E.
  assert (V : val (S754_finite false 9007199254740991 971) = 9007199254740991 * bpow radix2 971) by (unfold val, SF2R, F2R; cbn [cond_Zopp Fnum Fexp]; reflexivity).
  pose proof (bpow_gt_0 radix2 971) as P.
  assert (T : bpow radix2 1024 = 9007199254740992 * bpow radix2 971) by (replace 1024%Z with (53 + 971)%Z by reflexivity; rewrite bpow_plus; change (bpow radix2 53) with 9007199254740992; reflexivity).
  assert (T' : bpow radix2 1000 = 536870912 * bpow radix2 971) by (replace 1000%Z with (29 + 971)%Z by reflexivity; rewrite bpow_plus; change (bpow radix2 29) with 536870912; reflexivity).
  split; [|rewrite V, T'; apply Rmult_lt_compat_r; lra]. split; [vm_compute; reflexivity|]. split; [reflexivity|]. rewrite V, T, Rabs_pos_eq; [apply Rmult_le_compat_r; lra|apply Rmult_le_pos; lra].
Qed.

(** ** the scene *)
Definition scene_at_scale (L : R) (scene : @Arrays NumSF) (ray : RayF) : Prop := 1 <= L <= 1024 /\ forall t, In t (a_tri scene) -> at_scale L t ray.
Lemma scale_reasonable L scene ray : scene_at_scale L scene ray -> Forall reasonable_triangle (a_tri scene).
Proof.
  intros [HL H]. apply Forall_forall. intros t Ht. destruct (H t Ht) as (_ & (A1 & A2 & A3) & (B1 & B2 & B3) & (C1 & C2 & C3) & _).
  assert (B : L <= big 999) by (apply Rle_trans with (bpow radix2 10); [change (bpow radix2 10) with 1024; lra|apply bpow_le; lia]).
  assert (W : forall x, finite_upto L x -> finite_upto (big 999) x) by (intros x Q; exact (finite_weaken _ _ _ Q B)).
  exact (conj (conj (W _ A1) (conj (W _ A2) (W _ A3))) (conj (conj (W _ B1) (conj (W _ B2) (W _ B3))) (conj (W _ C1) (conj (W _ C2) (W _ C3))))).
Qed.
Lemma box_inside_refl a : box_inside a a. Proof. unfold box_inside. repeat split; lra. Qed.
Lemma box_inside_trans a b c : box_inside a b -> box_inside b c -> box_inside a c.
Proof. intros ((A1 & A2 & A3) & (A4 & A5 & A6)) ((B1 & B2 & B3) & (B4 & B5 & B6)). unfold box_inside. repeat split; lra. Qed.
(** a clear crossing is reached by the traversal *)
Lemma crossing_boxes (E : @Ext NumSF) L (t : TriF) (ray : RayF) s : box_test64 E L ray -> at_scale L t ray -> clearly_crosses L ray t s -> 1 / 100000 < s ->
  forall b, box_within L b -> box_inside (world_bounds t) b -> bbox_hit b ray (inv_dir ray) = true.
Proof.
  intros HB HS (HV & u & v & EX & H1 & H2 & H3) S0 b Hb HI. pose proof (L_range _ _ _ HS) as LR. pose proof HS as (_ & HA & HB' & HC & _ & HD & HU).
  apply (HB b s Hb S0). apply (off_edges_inside _ _ _ _ HI). destruct (bounds_ok L t HA HB' HC) as [_ EV]. rewrite EV, EX.
  destruct (direction_near L _ HD HU) as ((_ & N1 & _) & (_ & N2 & _) & (_ & N3 & _)). cbn [pow] in N1, N2, N3. rewrite Rmult_1_r in N1, N2, N3.
  destruct HA as ((_ & _ & A1) & (_ & _ & A2) & (_ & _ & A3)), HB' as ((_ & _ & B1) & (_ & _ & B2) & (_ & _ & B3)), HC as ((_ & _ & C1) & (_ & _ & C2) & (_ & _ & C3)).
  assert (V0 : 0 < Rabs (volume (val_ray ray) (val_tri t))) by (assert (0 <= L * L) by nra; lra).
  apply (interior_off_edges L (val_tri t) (val_ray ray) u v (proj1 LR) (conj A1 (conj A2 A3)) (conj B1 (conj B2 B3)) (conj C1 (conj C2 C3)) (conj N1 (conj N2 N3)) V0 H1 H2 H3).
Qed.

Section Queries.
  Variables (E : @Ext NumSF) (L : R) (scene : @Arrays NumSF) (ray : RayF).
  Hypothesis HE : sort_ok64 E.
  Hypothesis HA : aligned scene.
  Hypothesis HN : (Z.of_nat (length (a_tri scene)) < 2 ^ 15)%Z.
  Hypothesis HS : scene_at_scale L scene ray.
  Hypothesis HU : unit64 ray.
  Hypothesis HB : box_test64 E L ray.
  Lemma reorganised bfuel : (length (a_tri scene) <= bfuel)%nat -> exists nodes scene', @bvh_new NumSF E bfuel scene = Ret (nodes, scene') /\ aligned scene' /\ Permutation (records scene') (records scene).
  Proof. apply (C02_binary64 E HE scene HA (scale_reasonable _ _ _ HS)). Qed.
  Lemma same_triangles scene' : aligned scene' -> Permutation (records scene') (records scene) -> Permutation (a_tri scene') (a_tri scene).
  Proof. intros Ha' HP. rewrite <- (map_records_tri _ Ha'), <- (map_records_tri _ HA). apply Permutation_map. exact HP. Qed.
  (** what the traversal needs *)
  Lemma traversal bfuel nodes scene' : a_tri scene <> [] -> @bvh_new NumSF E bfuel scene = Ret (nodes, scene') ->
    exists root m, built bfuel scene root nodes scene' /\ leaves_le m root /\ (Z.of_nat m < 2 ^ 15)%Z /\ (length nodes <= 2 * length (a_tri scene))%nat /\
    (forall t s, In t (a_tri scene) -> clearly_crosses L ray t s -> 1 / 100000 < s -> exists j, nth_error (a_tri scene') j = Some t /\ reached ray root j).
  Proof.
    intros NE BV. destruct HE as [HP _]. destruct (build_permutation HP _ _ _ _ HA BV) as [Ha' HPm]. pose proof (same_triangles _ Ha' HPm) as PT.
    unfold bvh_new in BV. destruct (Nat.eqb_spec (length (a_tri scene)) 0) as [D|D]; [destruct (a_tri scene); [congruence|discriminate D]|].
    destruct (recursive_build _ _ _ _) as [[root o]| |] eqn:R; try discriminate. cbn [obind] in BV.
    assert (Q : nodes = snd (flatten_node root []) /\ scene' = o) by (clear -BV; split; congruence). clear BV. destruct Q as [-> ->].
    assert (Hb : built bfuel scene root (snd (flatten_node root [])) o) by (split; [exact HA|split; [exact NE|split; [exact R|reflexivity]]]).
    assert (Ha0 : aligned (@empty_arrays NumSF)) by (repeat split).
    destruct (build_spec HP _ _ _ _ _ _ Ha0 R) as (_ & _ & Hc & _). rewrite infos_of_length in Hc. cbn [empty_arrays a_tri length] in Hc.
    pose proof (covers_leaves_le _ _ _ Hc) as Hl. pose proof (covers_nsize _ _ _ Hc) as Hns.
    exists root, (length (a_tri scene)). split; [exact Hb|]. split; [exact Hl|]. split; [exact HN|].
    split; [rewrite flatten_flat; cbn [snd app]; rewrite flat_length; lia|].
    assert (HT : forall t, In t (a_tri scene) -> box_within L (world_bounds t)).
    { intros t Ht. destruct HS as [_ HS']. destruct (HS' t Ht) as (_ & T1 & T2 & T3 & _). apply (bounds_ok L t T1 T2 T3). }
    pose proof (any_build_boxes HP (box_within L) box_inside (fun a _ => box_inside_refl a) box_inside_trans (fun a b => box_union_ok L a b) scene HT _ _ _ _ _ Ha0 (any_infos_describe scene) R) as EN.
    intros t s Ht HC S0. destruct (In_nth_error _ _ (Permutation_in _ (Permutation_sym PT) Ht)) as [j Hj]. exists j. split; [exact Hj|].
    assert (Lj : (j < length (a_tri scene))%nat) by (rewrite <- (Permutation_length PT); apply nth_error_Some; rewrite Hj; discriminate).
    refine (proj1 (any_reach (box_within L) box_inside box_inside_trans ray (a_tri o) root 0 (length (a_tri scene)) j t Hc EN ltac:(lia) Hj _)).
    destruct HS as [_ HS']. exact (crossing_boxes E L t ray s HB (HS' t Ht) HC S0).
  Qed.
End Queries.

(** ** C98 - closest hit *)
Lemma tri_hit_test (ray : RayF) (t : TriF) (t2 : @F NumSF) info : tri_hit ray t t2 info -> exists p x y, @baricentric_coordinates NumSF ray t = Some (p, x, y) /\ t2 = length2 ray p.
Proof.
  intros (HI & HT & _). unfold triangle_intersect in HI. destruct (baricentric_coordinates ray t) as [[[p x] y]|]; [|discriminate HI]. exists p, x, y. split; [reflexivity|].
  assert (Q : new_info t p x y (direction ray) = info) by (clear -HI; congruence). rewrite HT, <- Q. unfold new_info. cbv zeta. destruct (get_side _ _). reflexivity.
Qed.
Lemma crossing_hit L (t : TriF) (ray : RayF) s : at_scale L t ray -> unit64 ray -> clearly_crosses L ray t s -> 1 / 3000 + 6 * L * blur L ray t <= s ->
  exists t2 info, tri_hit ray t t2 info /\ fltb t2 FMAX = true /\ finite_upto (bpow radix2 802) t2 /\ 0 <= val t2 /\ Rabs (sqrt (val t2) - s) <= 5 * L * blur L ray t.
Proof.
  intros HS HU HC H. pose proof (L_range _ _ _ HS) as LR. set (e := blur L ray t) in *.
  assert (E0 : 0 < e) by (apply blur_positive; [lra|apply HC]). assert (LE : 0 < L * e) by (apply Rmult_lt_0_compat; lra).
  destruct (crossing_found L t ray s HS HU HC ltac:(fold e; lra)) as (p & x & y & B & HE & F2 & P2 & D2). fold e in HE, D2.
  exists (length2 ray p), (new_info t p x y (direction ray)). split; [|split; [|split; [exact F2|split; [exact P2|exact D2]]]].
  - split; [unfold triangle_intersect; rewrite B; reflexivity|]. split; [unfold length2, new_info; cbv zeta; destruct (get_side _ _); reflexivity|].
    destruct t7_float as [V7 F7]. assert (F7' : finite_upto (bpow radix2 802) (@MIN_T7 NumSF)) by (apply (finite_weaken _ _ _ F7); change 1 with (bpow radix2 0); apply bpow_le; lia).
    rewrite (ltb_val _ _ _ F7' F2). apply Rlt_bool_true. apply Rabs_le_inv in D2. pose proof (sqrt_sqrt _ P2) as Q. assert (S1 : 1 / 3000 <= sqrt (val (length2 ray p))) by lra. nra.
  - destruct fmax_float as [FM VM]. rewrite (ltb_val (bpow radix2 1024) _ _ (finite_weaken _ _ _ F2 (bpow_le radix2 802 1024 ltac:(lia))) FM). apply Rlt_bool_true.
    apply Rle_lt_trans with (bpow radix2 1000); [|exact VM]. apply Rle_trans with (bpow radix2 802); [|apply bpow_le; lia]. destruct F2 as (_ & _ & F2). rewrite Rabs_pos_eq in F2 by exact P2. exact F2.
Qed.

Theorem C98_closest : forall (E : @Ext NumSF) L (scene : @Arrays NumSF) (r : @Ray NumSF),
  sort_ok64 E -> aligned scene -> (Z.of_nat (length (a_tri scene)) < 2 ^ 15)%Z ->
  let g := r_geometry r in
  scene_at_scale L scene g -> unit64 g -> box_test64 E L g ->
  forall bfuel fuel aux, (length (a_tri scene) <= bfuel)%nat -> (2 * length (a_tri scene) <= fuel)%nat ->
  exists nodes scene' found r' aux',
    @bvh_new NumSF E bfuel scene = Ret (nodes, scene') /\ Permutation (records scene') (records scene) /\
    @intersect NumSF E fuel nodes (a_tri scene') r aux = Ret (found, r', aux') /\
    match found with
    | Some j => exists k t s, j = Z.of_nat k /\ nth_error (a_tri scene') k = Some t /\
        let e := blur L g t in
        nearly_crosses L g t s /\ 1 / 100000 - 2 * L * e < s /\
        point_finite (x_point (r_interaction r')) /\ close (10 * L * e) (val_vec (x_point (r_interaction r'))) (along (val_ray g) s) /\
        forall t' s', In t' (a_tri scene) -> clearly_crosses L g t' s' -> 1 / 3000 + 6 * L * blur L g t' <= s' ->
                      s <= s' + 5 * L * (e + blur L g t')
    | None => r' = r /\
        forall t' s', In t' (a_tri scene) -> clearly_crosses L g t' s' -> s' < 1 / 3000 + 6 * L * blur L g t'
    end.
Proof.
  intros E L scene r HE HA HN g HS HU HB bfuel fuel aux Hb Hf.
  destruct (reorganised E L scene g HE HA HS bfuel Hb) as (nodes & scene' & BV & HA' & PM).
  pose proof (same_triangles scene HA scene' HA' PM) as PT.
  assert (NE : a_tri scene = [] \/ a_tri scene <> []) by (destruct (a_tri scene); [left; reflexivity|right; discriminate]). destruct NE as [NE|NE].
  { exists nodes, scene', None, r, aux. split; [exact BV|]. split; [exact PM|]. split.
    - unfold bvh_new in BV. rewrite NE in BV. cbn [length Nat.eqb] in BV. assert (Q : nodes = []) by (clear -BV; congruence). rewrite Q. reflexivity.
    - split; [reflexivity|]. rewrite NE. intros t' s' []. }
  destruct (traversal E L scene g HE HA HN HS HB bfuel nodes scene' NE BV) as (root & m & BT & HL & H15 & LN & RC). destruct HS as [LR HS].
  assert (IN : forall j t, nth_error (a_tri scene') j = Some t -> In t (a_tri scene)) by (intros j t Hj; apply (Permutation_in _ PT), (nth_error_In _ _ Hj)).
  destruct (intersect_generic strict_order_SF (proj1 HE) _ _ _ _ _ _ BT HL H15 ltac:(lia) fuel r aux ltac:(lia)) as [(j & t2 & info & HI & (t & Ht & HT & _) & HM)|[HI HM]].
  - exists nodes, scene', (Some (Z.of_nat j)), (hit_ray r t2 info), []. split; [exact BV|]. split; [exact PM|]. split; [exact HI|].
    destruct (tri_hit_test _ _ _ _ HT) as (p & x & y & B & E2). change (t2 = length2 g p) in E2. pose proof (HS t (IN _ _ Ht)) as ST.
    destruct (found_crossing L t g p x y ST HU B) as (UE & s & NC & S1 & S2 & F2 & P2 & D2). rewrite <- E2 in F2, P2, D2.
    exists j, t, s. split; [reflexivity|]. split; [exact Ht|]. set (e := blur L g t) in *. split; [exact NC|]. split; [exact S1|].
    assert (E0 : 0 < e < 1 / 50) by apply NC. assert (LE : 0 < L * e) by (apply Rmult_lt_0_compat; lra).
    rewrite <- and_assoc. split.
    + destruct HT as (_ & _ & H7). destruct t7_float as [V7 F7]. assert (F7' : finite_upto (bpow radix2 802) (@MIN_T7 NumSF)) by (apply (finite_weaken _ _ _ F7); change 1 with (bpow radix2 0); apply bpow_le; lia).
      rewrite (ltb_val _ _ _ F7' F2) in H7. destruct (Rlt_bool_spec (val (@MIN_T7 NumSF)) (val t2)) as [T0|]; [|discriminate H7].
      destruct ST as (_ & _ & _ & _ & HO & HD & _).
      apply (stored_point L g s e t2 LR HO HD HU F2 ltac:(lra) D2 S2 E0 ltac:(lra) UE).
    + intros t' s' Ht' HC' HS'. assert (LE' : 0 < L * blur L g t') by (apply Rmult_lt_0_compat; [lra|apply blur_positive; [lra|apply HC']]).
      destruct (RC t' s' Ht' HC' ltac:(lra)) as (j' & Hj' & Rj'). destruct (crossing_hit L t' g s' (HS t' Ht') HU HC' HS') as (t2' & info' & TH & TM & F2' & P2' & D2').
      pose proof (HM j' t2' info' Rj' (ex_intro _ t' (conj Hj' (conj TH TM)))) as LT. rewrite (ltb_val _ _ _ F2' F2) in LT.
      destruct (Rlt_bool_spec (val t2') (val t2)) as [|LE2]; [discriminate LT|]. pose proof (sqrt_le_1_alt _ _ LE2) as SQ.
      apply Rabs_le_inv in D2. apply Rabs_le_inv in D2'. pose proof (Rle_abs s). lra.
  - exists nodes, scene', None, r, []. split; [exact BV|]. split; [exact PM|]. split; [exact HI|]. split; [reflexivity|].
    intros t' s' Ht' HC'. apply Rnot_le_lt. intros HS'. assert (LE' : 0 < L * blur L g t') by (apply Rmult_lt_0_compat; [lra|apply blur_positive; [lra|apply HC']]).
    destruct (RC t' s' Ht' HC' ltac:(lra)) as (j' & Hj' & Rj'). destruct (crossing_hit L t' g s' (HS t' Ht') HU HC' HS') as (t2' & info' & TH & TM & _).
    exact (HM j' t2' info' Rj' (ex_intro _ t' (conj Hj' (conj TH TM)))).
Qed.
Print Assumptions C98_closest.

(** ** C98 - shadow rays *)
Lemma sub_below B (x y : @F NumSF) : finite_upto B x -> finite_upto B y -> 0 <= val y <= val x ->
  val (@fsub NumSF x y) = rnd64 (val x - val y) /\ finite_upto (bpow radix2 1024) (@fsub NumSF x y).
Proof.
  intros Hx Hy HB. destruct (as_b64 _ _ Hx) as (bx & -> & Fx & Vx), (as_b64 _ _ Hy) as (b' & -> & Fy & Vy).
  change (@fsub NumSF (B2SF bx) (B2SF b')) with (SFsub 53 1024 (B2SF bx) (B2SF b')). rewrite sub_equiv, !val_B2SF.
  rewrite !val_B2SF in HB. pose proof (Bminus_correct 53 1024 Hprec Hmax mode_NE bx b' Fx Fy) as C. cbn [round_mode] in C.
  assert (O : Rabs (rnd64 (B2R bx - B2R b')) <= B2R bx).
  { apply abs_round_le_generic; [exact valid64|apply valid_rnd_N|apply generic_format_B2R|]. rewrite Rabs_pos_eq by lra. lra. }
  pose proof (abs_B2R_lt_emax 53 1024 bx) as M. rewrite Rabs_pos_eq in M by lra.
  rewrite Rlt_bool_true in C by lra. destruct C as (C1 & C2 & _). split; [exact C1|]. apply of_b64; [exact C2|]. rewrite C1. lra.
Qed.
Theorem C98_shadow : forall (E : @Ext NumSF) L (scene : @Arrays NumSF) (ray : RayF) (d2 : @F NumSF),
  sort_ok64 E -> aligned scene -> (Z.of_nat (length (a_tri scene)) < 2 ^ 15)%Z ->
  scene_at_scale L scene ray -> unit64 ray -> box_test64 E L ray -> finite_upto (bpow radix2 1024) d2 ->
  forall bfuel fuel aux, (length (a_tri scene) <= bfuel)%nat -> (2 * length (a_tri scene) <= fuel)%nat ->
  exists nodes scene' b aux',
    @bvh_new NumSF E bfuel scene = Ret (nodes, scene') /\
    @unobstructed_distance NumSF E fuel nodes (a_tri scene') ray d2 aux = Ret (b, aux') /\
    (b = false -> exists t s, In t (a_tri scene) /\ nearly_crosses L ray t s /\ 1 / 100000 - 2 * L * blur L ray t < s /\
                    s <= sqrt (val d2) + 5 * L * blur L ray t) /\
    (b = true -> forall t s, In t (a_tri scene) -> clearly_crosses L ray t s -> let e := blur L ray t in
                    1 / 900 + 6 * L * e <= s -> val d2 < (s + 5 * L * e) * (s + 5 * L * e) + 2 / 10000).
Proof.
  intros E L scene ray d2 HE HA HN HS HU HB FD bfuel fuel aux Hb Hf.
  destruct (reorganised E L scene ray HE HA HS bfuel Hb) as (nodes & scene' & BV & HA' & PM).
  pose proof (same_triangles scene HA scene' HA' PM) as PT.
  assert (NE : a_tri scene = [] \/ a_tri scene <> []) by (destruct (a_tri scene); [left; reflexivity|right; discriminate]). destruct NE as [NE|NE].
  { exists nodes, scene', true, aux. split; [exact BV|]. split.
    - unfold bvh_new in BV. rewrite NE in BV. cbn [length Nat.eqb] in BV. assert (Q : nodes = []) by (clear -BV; congruence). rewrite Q. reflexivity.
    - split; [discriminate|]. rewrite NE. intros _ t' s' []. }
  destruct (traversal E L scene ray HE HA HN HS HB bfuel nodes scene' NE BV) as (root & m & BT & HL & H15 & LN & RC). destruct HS as [LR HS].
  assert (IN : forall j t, nth_error (a_tri scene') j = Some t -> In t (a_tri scene)) by (intros j t Hj; apply (Permutation_in _ PT), (nth_error_In _ _ Hj)).
  destruct (shadow_generic (proj1 HE) _ _ _ _ _ _ BT HL H15 ltac:(lia) fuel ray d2 aux ltac:(lia)) as (b & st & HQ & HBB).
  exists nodes, scene', b, st. split; [exact BV|]. split; [exact HQ|].
  destruct t6_float as [V6 F6]. destruct t4_float as [V4 F4].
  assert (W1 : forall x : @F NumSF, finite_upto 1 x -> finite_upto (bpow radix2 802) x) by (intros x Q; apply (finite_weaken _ _ _ Q); change 1 with (bpow radix2 0); apply bpow_le; lia).
  assert (W2 : forall x : @F NumSF, finite_upto (bpow radix2 802) x -> finite_upto (bpow radix2 1024) x) by (intros x Q; apply (finite_weaken _ _ _ Q), bpow_le; lia).
  assert (SUM : forall t2 : @F NumSF, finite_upto (bpow radix2 802) t2 -> 0 <= val t2 ->
    finite_upto (bpow radix2 803) (@fadd NumSF t2 MIN_T6) /\ val (@fadd NumSF t2 MIN_T6) = rnd64 (val t2 + val (@MIN_T6 NumSF))).
  { intros t2 F2 P2. destruct (add_val 803 ltac:(lia) (bpow radix2 802) _ _ F2 (W1 _ F6)) as [VS FS]; [|split; [exact FS|exact VS]].
    replace (bpow radix2 803) with (bpow radix2 802 + bpow radix2 802) by (change 803%Z with (802 + 1)%Z; rewrite bpow_plus; change (bpow radix2 1) with 2; ring).
    refine (Rle_trans _ _ _ (Rabs_triang _ _) _). apply Rplus_le_compat; [apply F2|apply (W1 _ F6)]. }
  split.
  - intros ->. destruct (proj1 HBB eq_refl) as (j & t & _ & Ht & HK). exists t. unfold blocks, simple_triangle_intersect in HK.
    destruct (baricentric_coordinates ray t) as [[[p x] y]|] eqn:B; [|discriminate HK]. cbv zeta in HK. fold (length2 ray p) in HK.
    destruct (found_crossing L t ray p x y (HS t (IN _ _ Ht)) HU B) as (UE & s & NC & S1 & S2 & F2 & P2 & D2). exists s. split; [exact (IN _ _ Ht)|]. split; [exact NC|]. split; [exact S1|].
    apply Bool.andb_true_iff in HK as [HK _]. apply Bool.andb_true_iff in HK as [_ HK]. destruct (SUM _ F2 P2) as [FS VS].
    rewrite (ltb_val (bpow radix2 1024) _ _ (finite_weaken _ _ _ FS (bpow_le radix2 803 1024 ltac:(lia))) FD), VS in HK.
    destruct (Rlt_bool_spec (rnd64 (val (length2 ray p) + val (@MIN_T6 NumSF))) (val d2)) as [LT|]; [|discriminate HK].
    assert (LE : val (length2 ray p) <= val d2). { rewrite <- (rnd_id _ _ F2). apply Rle_trans with (rnd64 (val (length2 ray p) + val (@MIN_T6 NumSF))); [apply rnd_le; lra|lra]. }
    pose proof (sqrt_le_1_alt _ _ LE). apply Rabs_le_inv in D2. pose proof (Rle_abs s). lra.
  - intros -> t s Ht HC e HS'. apply Rnot_le_lt. intros FAR. assert (LE : 0 < L * e) by (apply Rmult_lt_0_compat; [lra|apply blur_positive; [lra|apply HC]]).
    destruct (crossing_found L t ray s (HS t Ht) HU HC ltac:(fold e; lra)) as (p & x & y & B & HE' & F2 & P2 & D2). fold e in HE', D2.
    destruct (RC t s Ht HC ltac:(lra)) as (j & Hj & Rj). assert (BL : blocks ray d2 t = true).
    2:{ assert (Q : true = false) by (apply (proj2 HBB); exists j, t; auto). discriminate Q. }
    unfold blocks, simple_triangle_intersect. rewrite B. cbv zeta. fold (length2 ray p). set (t2 := length2 ray p) in *.
    pose proof (sqrt_sqrt _ P2) as SQ. pose proof (sqrt_pos (val t2)) as S0. apply Rabs_le_inv in D2.
    assert (T1 : 1 / 810000 <= val t2) by nra. assert (T2 : val t2 <= (s + 5 * L * e) * (s + 5 * L * e)) by (rewrite <- SQ; apply Rmult_le_compat; lra).
    assert (T3 : val t2 <= 30000000).
    { assert (HS4 : s <= 4 * L).
      { destruct HC as (HV & u & v & EX & H1 & H2 & H3). fold e in H1, H2, H3. pose proof (HS t Ht) as ST. 
        assert (HI : triangle_intersect t ray = Some (new_info t p x y (direction ray))) by (unfold triangle_intersect; rewrite B; reflexivity).
        pose proof (hit_volume L t ray _ ST HI) as HV'. destruct (cramer_conv _ _ _ _ _ EX) as (E1 & E2 & E3).
        assert (V0 : volume (val_ray ray) (val_tri t) <> 0) by (intros Q; rewrite Q, Rabs_R0 in HV'; lra).
        pose proof (reach L t ray ST HV') as RCH. rewrite E1, E2, E3 in RCH.
        replace (u * volume (val_ray ray) (val_tri t) / volume (val_ray ray) (val_tri t)) with u in RCH by (field; exact V0).
        replace (v * volume (val_ray ray) (val_tri t) / volume (val_ray ray) (val_tri t)) with v in RCH by (field; exact V0).
        replace (s * volume (val_ray ray) (val_tri t) / volume (val_ray ray) (val_tri t)) with s in RCH by (field; exact V0).
        specialize (RCH ltac:(lra) ltac:(lra) ltac:(lra)). pose proof (Rle_abs s). lra. }
      assert (5 * L * e <= 5 * L * (1 / 50)) by (apply Rmult_le_compat_l; lra). assert (sqrt (val t2) <= 5000) by lra. nra. }
    rewrite (ltb_val _ _ _ (W1 _ F6) F2), Rlt_bool_true by lra. cbn [andb].
    destruct (SUM _ F2 P2) as [FS VS]. rewrite (ltb_val (bpow radix2 1024) _ _ (finite_weaken _ _ _ FS (bpow_le radix2 803 1024 ltac:(lia))) FD), VS.
    assert (U1 : ulp1 <= 1 / 4000000000000000) by (rewrite ulp1_val; lra). pose proof ulp1_pos as U0.
    rewrite Rlt_bool_true.
    2:{ pose proof (rnd_near (val t2 + val (@MIN_T6 NumSF))) as RN. rewrite (Rabs_pos_eq (val t2 + val (@MIN_T6 NumSF))) in RN by lra. apply Rabs_le_inv in RN.
        assert (ulp1 * (val t2 + val (@MIN_T6 NumSF)) <= 1 / 4000000000000000 * 30000001) by (apply Rmult_le_compat; lra). lra. }
    cbn [andb]. destruct (sub_below _ d2 t2 FD (W2 _ F2) ltac:(lra)) as [VD FDD]. destruct (abs_val _ _ FDD) as [VA FA].
    rewrite (ltb_val (bpow radix2 1024) _ _ (W2 _ (W1 _ F4)) FA), VA, VD. apply Rlt_bool_true.
    apply Rlt_le_trans with (rnd64 (2 / 10000)).
    + pose proof (rnd_near (2 / 10000)) as RN. rewrite (Rabs_pos_eq (2 / 10000)) in RN by lra. apply Rabs_le_inv in RN. lra.
    + refine (Rle_trans _ _ _ _ (Rle_abs _)). apply rnd_le. lra.
Qed.
Print Assumptions C98_shadow.

(** a concrete case: two plates of 4 by 3 one above the other, seen along (2/3, 1/3, -2/3) (rounded); the box test is the
    usual slab test, computed in binary64 *)
Definition lower_tri : TriF := mkTri (@V3 NumSF (sf_ofZ 0) (sf_ofZ 0) (sf_ofZ (-1))) (@V3 NumSF (sf_ofZ 4) (sf_ofZ 0) (sf_ofZ (-1))) (@V3 NumSF (sf_ofZ 4) (sf_ofZ 3) (sf_ofZ (-1))).
Definition plates : @Arrays NumSF := mkArr [floor_tri; lower_tri] [0; 0]%nat [0; 0]%nat [flat_norm; flat_norm].
Definition slanted : RayF := mkRay3D (@V3 NumSF (sf_ofZ 1) (sf_ofZ 0) (sf_ofZ 2)) (@V3 NumSF (@flit NumSF 2 3) (@flit NumSF 1 3) (@flit NumSF (-2) 3)).
Lemma thirds : (val (@flit NumSF 2 3) = 6004799503160661 / 2 ^ 53 /\ finite_upto 2 (@flit NumSF 2 3)) /\ (val (@flit NumSF 1 3) = 6004799503160661 / 2 ^ 54 /\ finite_upto 2 (@flit NumSF 1 3)) /\
  (val (@flit NumSF (-2) 3) = - (6004799503160661 / 2 ^ 53) /\ finite_upto 2 (@flit NumSF (-2) 3)).
Proof.
  split; [|split].
  - assert (E : (@flit NumSF 2 3 : spec_float) = S754_finite false 6004799503160661 (-53)) by (vm_compute; reflexivity). rewrite E.
    assert (V : val (S754_finite false 6004799503160661 (-53)) = 6004799503160661 / 2 ^ 53) by (unfold val, SF2R, F2R; cbn; lra).
    split; [exact V|]. split; [vm_compute; reflexivity|]. split; [reflexivity|]. rewrite V, Rabs_pos_eq; lra.
  - assert (E : (@flit NumSF 1 3 : spec_float) = S754_finite false 6004799503160661 (-54)) by (vm_compute; reflexivity). rewrite E.
    assert (V : val (S754_finite false 6004799503160661 (-54)) = 6004799503160661 / 2 ^ 54) by (unfold val, SF2R, F2R; cbn; lra).
    split; [exact V|]. split; [vm_compute; reflexivity|]. split; [reflexivity|]. rewrite V, Rabs_pos_eq; lra.
  - assert (E : (@flit NumSF (-2) 3 : spec_float) = S754_finite true 6004799503160661 (-53)) by (vm_compute; reflexivity). rewrite E.
    assert (V : val (S754_finite true 6004799503160661 (-53)) = - (6004799503160661 / 2 ^ 53)) by (unfold val, SF2R, F2R; cbn; lra).
    split; [exact V|]. split; [vm_compute; reflexivity|]. split; [reflexivity|]. rewrite V, Rabs_Ropp, Rabs_pos_eq; lra.
Qed.
Example C98_hyp : sort_ok64 slab_ext /\ aligned plates /\ scene_at_scale 4 plates slanted /\ unit64 slanted /\ box_test64 slab_ext 4 slanted /\
  exists s, clearly_crosses 4 slanted floor_tri s /\ 1 / 900 + 6 * 4 * blur 4 slanted floor_tri <= s.
Proof.
  destruct thirds as ((V1 & F1) & (V2 & F2) & (V3' & F3)).
  assert (I : forall z, (Z.abs z <= 4)%Z -> val (sf_ofZ z) = IZR z /\ finite_upto 4 (sf_ofZ z)).
  { intros z Hz. apply small_int; [lia|]. rewrite <- abs_IZR. apply IZR_le. exact Hz. }
  destruct (I 0%Z ltac:(lia)) as [W0 G0]. destruct (I 1%Z ltac:(lia)) as [W1 G1]. destruct (I 2%Z ltac:(lia)) as [W2 G2]. destruct (I 3%Z ltac:(lia)) as [W3 G3]. destruct (I 4%Z ltac:(lia)) as [W4 G4]. destruct (I (-1)%Z ltac:(lia)) as [W5 G5].
  assert (UU : unit64 slanted). { unfold unit64, slanted, val_vec, dot, pt. cbn [direction vx vy vz]. rewrite V1, V2, V3'. apply Rabs_le. split; lra. }
  assert (WO : within 4 (origin slanted)) by exact (conj G1 (conj G0 G2)). assert (WD : within 2 (direction slanted)) by exact (conj F1 (conj F2 F3)).
  assert (UU' : Rabs (dot (val_vec (direction slanted)) (val_vec (direction slanted)) - 1) <= 1 / 1000) by (unfold unit64 in UU; lra).
  split; [exact sort_ok64_satisfiable|]. split; [repeat split|].
  split.
  { split; [lra|]. intros t [<-|[<-|[]]]; (split; [lra|]); (split; [split; [assumption|split; assumption]|]); (split; [split; [assumption|split; assumption]|]);
      (split; [split; [assumption|split; assumption]|]); exact (conj WO (conj WD UU')). }
  split; [exact UU|]. split.
  { apply slab_ok; try assumption; [lra|]. assert (B : bpow radix2 (-100) <= / 4) by (apply Rle_trans with (bpow radix2 (-2)); [apply bpow_le; lia|cbn; lra]).
    unfold oblique, slanted. cbn [direction vx vy vz]. rewrite V1, V2, V3'. rewrite Rabs_Ropp. rewrite !Rabs_pos_eq by lra. repeat split; lra. }
  assert (VV : volume (val_ray slanted) (val_tri floor_tri) = 12 * (6004799503160661 / 2 ^ 53)).
  { unfold volume, val_ray, val_tri, val_vec, slanted, floor_tri, cross, minus, dot, pt. cbn [ta tb tc origin direction vx vy vz]. rewrite W0, W3, W4, V1, V2, V3'. field. }
  assert (EB : 0 < blur 4 slanted floor_tri <= 1 / 2 ^ 41) by (unfold blur; rewrite VV, Rabs_pos_eq by lra; split; lra).
  exists (2 / (6004799503160661 / 2 ^ 53)). split; [|lra].
  unfold clearly_crosses. cbv zeta. set (e := blur 4 slanted floor_tri) in *. clearbody e. rewrite VV, Rabs_pos_eq by lra. split; [lra|].
  exists (5 / 12), (1 / 3). split; [|lra].
  unfold along, bary, plus, times, pt, val_ray, val_tri, val_vec, slanted, floor_tri. cbn [ta tb tc origin direction vx vy vz pt]. rewrite W0, W1, W2, W3, W4, V1, V2, V3'.
  apply vec_ext; cbn [vx vy vz]; match goal with |- ?a = ?b => change (@eq R a b) end; field.
Qed.

(** the demand on the external box test is met by the usual slab test, for every ray that is not parallel to an axis plane *)
Theorem C98_slab_test : forall L (ray : RayF), 1 <= L <= 1024 -> within L (origin ray) -> within 2 (direction ray) -> unit64 ray -> oblique ray ->
  sort_ok64 slab_ext /\ box_test64 slab_ext L ray.
Proof.
  intros L ray HL HO HD HU HB. split; [exact sort_ok64_satisfiable|]. apply slab_ok; try assumption. unfold unit64 in HU. lra.
Qed.
Print Assumptions C98_slab_test.
