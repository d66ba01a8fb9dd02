(** * Property C99, continued: the camera's rays in the program's own arithmetic (binary64, every operation rounded) *)
From Coq Require Import ZArith SpecFloat Reals Lra Lia Psatz List.
From Flocq Require Import Core BinarySingleNaN Relative.
From Verif Require Import Num NumR NumSF SFBridge FloatOps FloatRound FloatError Geometry Triangle SpecGeom TriangleProofs P_Exact
  Colour Ray Camera CameraProofs P_FloatHit P_FloatUnit P_FloatQuery P_FloatDir.
Import ListNotations.
#[local] Existing Instance Hprec.
#[local] Existing Instance Hmax.
#[local] Existing Instance valid64.
Open Scope R_scope.

(** ** the vocabulary of the statements *)
(** a view whose direction and up vector are unit vectors up to rounding and nearly perpendicular to each other *)
Definition view64 (v : @View NumSF) : Prop :=
  unit_vec64 (view_direction v) /\ unit_vec64 (view_up v) /\ Rabs (dot (val_vec (view_direction v)) (val_vec (view_up v))) <= / 2 ^ 10.
(** a film of reasonable size, not more than eight times as high as wide *)
Definition film64 (f : Film) : Prop :=
  (0 < film_width f)%nat /\ (0 < film_height f)%nat /\ (Z.of_nat (film_width f) <= 65536)%Z /\ (Z.of_nat (film_height f) <= 65536)%Z /\ (film_height f <= 8 * film_width f)%nat.
(** the line of sight from the view point to the exact centre of a pixel, the film at the distance fd *)
Definition sight64 (v : @View NumSF) (f : Film) (fd : R) (px py : nat) : VecR :=
  let d := val_vec (view_direction v) in let up := val_vec (view_up v) in
  plus (plus (times fd d) (times (film_x f px) (cross d up))) (times (film_z f py) up).

Lemma near_refine L n m c m' x r : near L n m c x r -> Rabs r <= m' * L ^ n -> near L n m' c x r.
Proof. intros (A & _ & B) H. exact (conj A (conj H B)). Qed.
Lemma count_near (k : nat) : (Z.of_nat k <= 65536)%Z -> val (@fofZ NumSF (Z.of_nat k)) = INR k /\ finite_upto 65536 (@fofZ NumSF (Z.of_nat k)) /\ 0 <= INR k <= 65536.
Proof.
  intros H. assert (B : 0 <= INR k <= 65536). { split; [apply pos_INR|]. rewrite INR_IZR_INZ. apply IZR_le. exact H. }
  destruct (ofZ_val (Z.of_nat k) ltac:(lia)) as [V FI]. rewrite <- INR_IZR_INZ in V, FI. split; [exact V|]. split; [|exact B].
  apply (finite_weaken _ _ _ FI). rewrite Rabs_pos_eq; lra.
Qed.

(** ** the real arithmetic of the error bounds *)
Lemma err_scale (a e W P b : R) : 0 <= P -> Rabs (a - e) <= b -> Rabs (P * a - P * e) <= P * b.
Proof. intros HP H. replace (P * a - P * e) with (P * (a - e)) by ring. rewrite Rabs_mult, (Rabs_pos_eq P HP). apply Rmult_le_compat_l; assumption. Qed.

Section Film.
  Variables (f : Film) (px py : nat).
  Hypothesis HF : film64 f.
  Hypothesis HX : (px < film_width f)%nat.
  Hypothesis HY : (py < film_height f)%nat.
  Let W := INR (film_width f).
  Let H := INR (film_height f).
  Let P := INR px.
  Let Q := INR py.
  Notation u := ulp1.

  Lemma sizes : 1 <= W <= 65536 /\ 1 <= H <= 65536 /\ H <= 8 * W /\ 0 <= P <= W - 1 /\ 0 <= Q <= H - 1.
  Proof.
    destruct HF as (W0 & H0 & W1 & H1 & HW).
    assert (A : forall k, (0 < k)%nat /\ (Z.of_nat k <= 65536)%Z -> 1 <= INR k <= 65536).
    { intros k [K0 K1]. destruct (count_near k K1) as (_ & _ & B). split; [|apply B]. apply (le_INR 1) in K0. exact K0. }
    pose proof (A _ (conj W0 W1)) as AW. pose proof (A _ (conj H0 H1)) as AH.
    assert (B : forall i k, (i < k)%nat -> 0 <= INR i <= INR k - 1).
    { intros i k K. split; [apply pos_INR|]. apply le_INR in K. rewrite S_INR in K. lra. }
    apply le_INR in HW. rewrite mult_INR in HW. replace (INR 8) with 8 in HW by (cbn; lra).
    exact (conj AW (conj AH (conj HW (conj (B _ _ HX) (B _ _ HY))))).
  Qed.
  Lemma u_tiny : 0 < u <= 1 / 4000000000000000.
  Proof. split; [exact ulp1_pos|]. rewrite ulp1_val. lra. Qed.
  Lemma recips : 0 < / W <= 1 /\ 0 < / H <= 1 /\ P * / W <= 1 /\ Q * / W <= 8 /\ H * / W <= 8 /\ W * / W = 1 /\ H * / H = 1 /\ Q * / H <= 1.
  Proof.
    destruct sizes as (A & B & C & D & E). assert (IW : 0 < / W) by (apply Rinv_0_lt_compat; lra). assert (IH : 0 < / H) by (apply Rinv_0_lt_compat; lra).
    assert (WW : W * / W = 1) by (field; lra). assert (HH : H * / H = 1) by (field; lra).
    repeat split; try assumption; nra.
  Qed.
  Definition fin80 (x : spec_float) := finite_upto BIG x.
  Lemma quot (x y : @F NumSF) B B' m : finite_upto B x -> finite_upto B' y -> val y <> 0 -> Rabs (val x / val y) <= m -> m <= 2 ^ 40 ->
    val (@fdiv NumSF x y) = rnd64 (val x / val y) /\ finite_upto BIG (@fdiv NumSF x y) /\
    Rabs (val (@fdiv NumSF x y) - val x / val y) <= u * Rabs (val x / val y) + u / 1000000.
  Proof.
    intros F1 F2 N0 B1 B2. destruct (div_val 80 ltac:(lia) _ _ x y F1 F2 N0) as [V FI]; [cbn; lra|].
    split; [exact V|]. split; [apply (finite_weaken _ _ _ FI); apply bpow_le; lia|]. rewrite V. apply rnd_near.
  Qed.
  Lemma prod (x y : @F NumSF) B B' m : finite_upto B x -> finite_upto B' y -> Rabs (val x * val y) <= m -> m <= 2 ^ 40 ->
    val (@fmul NumSF x y) = rnd64 (val x * val y) /\ finite_upto BIG (@fmul NumSF x y) /\
    Rabs (val (@fmul NumSF x y) - val x * val y) <= u * Rabs (val x * val y) + u / 1000000.
  Proof.
    intros F1 F2 B1 B2. destruct (mul_val 80 ltac:(lia) _ _ x y F1 F2) as [V FI]; [cbn; lra|].
    split; [exact V|]. split; [apply (finite_weaken _ _ _ FI); apply bpow_le; lia|]. rewrite V. apply rnd_near.
  Qed.
  Lemma one_exact : near 1 0 1 0 (@fdiv NumSF f2 f2) 1.
  Proof.
    assert (E : (@fdiv NumSF f2 f2 : spec_float) = sf_ofZ 1) by (vm_compute; reflexivity).
    destruct (small_int 1 2 ltac:(lia)) as [V FO]; [rewrite Rabs_pos_eq; lra|]. rewrite <- E in V, FO.
    split; [apply (finite_weaken _ _ _ FO); rewrite BIG_val; lra|]. cbn [pow]. rewrite V. rewrite Rabs_pos_eq by lra. split; [lra|]. unfold Rminus. rewrite Rplus_opp_r, Rabs_R0. lra.
  Qed.

  (** the column *)
  Lemma dx_err : finite_upto BIG (@film_dx NumSF f) /\ Rabs (val (@film_dx NumSF f) - 2 * / W) <= u * (2 * / W) + u / 1000000.
  Proof.
    destruct sizes as (A & B & C & D & E). destruct recips as (R1 & _). destruct HF as (W0 & _ & W1 & _). destruct (count_near _ W1) as (VW & FW & _). fold W in VW.
    destruct two_exact as [V2 F2]. destruct (quot f2 (@fofZ NumSF (Z.of_nat (film_width f))) _ _ 2 F2 FW) as (_ & FI & EE).
    - rewrite VW. lra.
    - rewrite V2, VW. unfold Rdiv. rewrite Rabs_pos_eq; lra.
    - lra.
    - split; [exact FI|]. rewrite V2, VW in EE. unfold Rdiv in EE. rewrite (Rabs_pos_eq (2 * / W)) in EE by lra. exact EE.
  Qed.
  Lemma half_near (x : @F NumSF) r e m c : finite_upto BIG x -> 0 <= r -> r / 2 <= m -> 0 <= m <= 1000 -> Rabs (val x - r) <= e -> e / 2 <= c * u -> 0 <= c <= 1000 ->
    near 1 0 m (c + m + 1/1000) (@fdiv NumSF x f2) (r / 2).
  Proof.
    intros FX R0 RM HM HE HC CB. destruct two_exact as [V2 F2].
    apply (finish 1 ltac:(lra) ltac:(lra) 0 m c m (c + m + 1/1000) _ (r / 2) (val x / 2)); try lra; try lia; cbn [pow].
    - rewrite Rabs_pos_eq; lra.
    - replace (val x / 2 - r / 2) with (/ 2 * (val x - r)) by field. rewrite Rabs_mult, (Rabs_pos_eq (/ 2)) by lra. lra.
    - intros B. rewrite <- V2 in B |- *. apply (div_val 80 ltac:(lia) _ _ _ _ FX F2); [rewrite V2; lra|exact B].
  Qed.
  Lemma times_near (k : nat) (x : @F NumSF) r e m c : (Z.of_nat k <= 65536)%Z -> finite_upto BIG x -> 0 <= r -> INR k * r <= m -> 0 <= m <= 1000 ->
    Rabs (val x - r) <= e -> INR k * e <= c * u -> 0 <= c <= 1000 ->
    near 1 0 m (c + m + 1/1000) (@fmul NumSF (fofZ (Z.of_nat k)) x) (INR k * r).
  Proof.
    intros K FX R0 RM HM HE HC CB. destruct (count_near k K) as (VK & FK & KB).
    apply (finish 1 ltac:(lra) ltac:(lra) 0 m c m (c + m + 1/1000) _ (INR k * r) (INR k * val x)); try lra; try lia; cbn [pow].
    - rewrite Rabs_pos_eq by nra. lra.
    - apply Rle_trans with (INR k * e); [|lra]. apply err_scale; [exact 0|lra|exact HE].
    - intros B. rewrite <- VK in B |- *. apply (mul_val 80 ltac:(lia) _ _ _ x FK FX B).
  Qed.
  Lemma x_near : near 1 0 1 13 (@fsub NumSF (@fadd NumSF (@fdiv NumSF (film_dx f) f2) (@fmul NumSF (fofZ (Z.of_nat px)) (film_dx f))) (@fdiv NumSF f2 f2)) (film_x f px).
  Proof.
    destruct sizes as (A & B & C & D & E). destruct recips as (R1 & R2 & R3 & R4 & R5 & R6 & R7). destruct dx_err as [FD ED]. destruct u_tiny as [U0 U1].
    assert (UW : 0 <= u * / W <= u) by nra.
    pose proof (half_near _ (2 * / W) (u * (2 * / W) + u / 1000000) 1 (11/10) FD ltac:(lra) ltac:(lra) ltac:(lra) ED ltac:(lra) ltac:(lra)) as N1.
    assert (KX : (Z.of_nat px <= 65536)%Z) by (destruct HF as (_ & _ & W1 & _); lia).
    assert (KE : P * (u * (2 * / W) + u / 1000000) <= 21/10 * u).
    { replace (P * (u * (2 * / W) + u / 1000000)) with (u * (2 * (P * / W) + P * / 1000000)) by (field; lra). assert (2 * (P * / W) + P * / 1000000 <= 21/10) by lra. nra. }
    pose proof (times_near px _ (2 * / W) _ 2 (21/10) KX FD ltac:(lra) ltac:(fold P; lra) ltac:(lra) ED KE ltac:(lra)) as N2. fold P in N2.
    pose proof (near_add 1 ltac:(lra) ltac:(lra) 0 _ _ _ _ 3 (94/10) _ _ _ _ N1 N2 ltac:(lia) ltac:(lra) ltac:(lra) ltac:(lra) ltac:(lra) ltac:(lra) ltac:(lra) ltac:(lra) ltac:(lra)) as N3.
    assert (Q3 : Rabs (2 * / W / 2 + P * (2 * / W)) <= 2 * 1 ^ 0).
    { cbn [pow]. rewrite Rabs_pos_eq by nra. assert ((W - 1) * / W = 1 - / W) by (field; lra). nra. }
    apply (near_refine _ _ _ _ 2) in N3; [|exact Q3].
    pose proof (near_sub 1 ltac:(lra) ltac:(lra) 0 _ _ _ _ 3 13 _ _ _ _ N3 one_exact ltac:(lia) ltac:(lra) ltac:(lra) ltac:(lra) ltac:(lra) ltac:(lra) ltac:(lra) ltac:(lra) ltac:(lra)) as N4.
    assert (EX : 2 * / W / 2 + P * (2 * / W) - 1 = film_x f px) by (unfold film_x; fold W P; field; lra). rewrite EX in N4.
    apply (near_refine _ _ _ _ 1) in N4; [exact N4|]. rewrite <- EX. cbn [pow]. cbn [pow] in Q3. rewrite Rabs_pos_eq in Q3 by nra. apply Rabs_le. split; nra.
  Qed.
  (** the row *)
  Lemma ylim_err : finite_upto BIG (@film_ylim NumSF f) /\ Rabs (val (@film_ylim NumSF f) - 2 * (H * / W)) <= u * (401 / 100 * (H * / W)) + 4 * u / 1000000.
  Proof.
    destruct sizes as (A & B & C & D & E). destruct recips as (R1 & R2 & R3 & R4 & R5 & R6 & R7). destruct u_tiny as [U0 U1].
    destruct HF as (W0 & H0 & W1 & H1 & _). destruct (count_near _ W1) as (VW & FW & _). fold W in VW. destruct (count_near _ H1) as (VH & FH & _). fold H in VH.
    destruct two_exact as [V2 F2].
    assert (P0 : 0 <= H * / W) by nra.
    destruct (quot (@fofZ NumSF (Z.of_nat (film_height f))) (@fofZ NumSF (Z.of_nat (film_width f))) _ _ 8 FH FW) as (_ & FI & EE).
    - rewrite VW. lra.
    - rewrite VH, VW. unfold Rdiv. rewrite Rabs_pos_eq; lra.
    - lra.
    - rewrite VH, VW in EE. unfold Rdiv in EE at 2 3. rewrite (Rabs_pos_eq (H * / W)) in EE by lra. set (q := @fdiv NumSF _ _) in *.
      assert (UH : u * (H * / W) <= 8 * u) by nra.
      assert (QB : Rabs (val q - H * / W) <= 1) by lra. apply Rabs_le_inv in QB.
      assert (Q2 : Rabs (val q * val (@f2 NumSF)) <= 2 * (H * / W) + 2 * (u * (H * / W) + u / 1000000)).
      { rewrite V2. apply Rabs_le_inv in EE. apply Rabs_le. split; nra. }
      destruct (prod q f2 _ _ 20 FI F2) as (_ & FY & EY); [lra|lra|]. rewrite V2 in *.
      change (finite_upto BIG (@film_ylim NumSF f)) in FY. split; [exact FY|].
      change (@fmul NumSF q f2) with (@film_ylim NumSF f) in EY. set (y := val (@film_ylim NumSF f)) in *. clearbody y. clear FY.
      assert (K : u * Rabs (val q * 2) <= u * (2 * (H * / W) + 2 * (u * (H * / W) + u / 1000000))) by (apply Rmult_le_compat_l; lra).
      assert (K2 : u * (2 * (u * (H * / W) + u / 1000000)) <= u * / 1000000000) by (apply Rmult_le_compat_l; nra).
      set (z := val q) in *. clearbody z. apply Rabs_le_inv in EE. apply Rabs_le_inv in EY. unfold Rdiv in *. set (h := H * / W) in *. clearbody h.
      apply Rabs_le. assert (0 <= u * h) by nra. split; lra.
  Qed.
  Lemma dy_err : finite_upto BIG (@film_dy NumSF f) /\ Rabs (val (@film_dy NumSF f) - 2 * / W) <= u * (602 / 100 * / W) + 5 * u / 1000000 * / H + u / 1000000.
  Proof.
    destruct sizes as (A & B & C & D & E). destruct recips as (R1 & R2 & R3 & R4 & R5 & R6 & R7 & R8). destruct u_tiny as [U0 U1]. destruct ylim_err as [FY EY].
    destruct HF as (W0 & H0 & W1 & H1 & _). destruct (count_near _ H1) as (VH & FH & _). fold H in VH.
    assert (EQ : Rabs (val (@film_ylim NumSF f) * / H - 2 * / W) <= u * (401 / 100 * / W) + 4 * u / 1000000 * / H).
    { replace (val (@film_ylim NumSF f) * / H - 2 * / W) with ((val (@film_ylim NumSF f) - 2 * (H * / W)) * / H) by (field; lra).
      rewrite Rabs_mult, (Rabs_pos_eq (/ H)) by lra.
      apply Rle_trans with ((u * (401 / 100 * (H * / W)) + 4 * u / 1000000) * / H); [apply Rmult_le_compat_r; lra|].
      replace ((u * (401 / 100 * (H * / W)) + 4 * u / 1000000) * / H) with (u * (401 / 100 * / W) + 4 * u / 1000000 * / H) by (field; lra). lra. }
    assert (UW : 0 <= u * / W <= u) by nra. assert (UHH : 0 <= u * / H <= u) by nra.
    set (y := val (@film_ylim NumSF f)) in *.
    assert (S : Rabs (y * / H) <= 2 * / W + (u * (401 / 100 * / W) + 4 * u / 1000000 * / H)).
    { replace (y * / H) with ((y * / H - 2 * / W) + 2 * / W) by ring. apply (Rle_trans _ _ _ (Rabs_triang _ _)). rewrite (Rabs_pos_eq (2 * / W)) by lra. lra. }
    destruct (quot (@film_ylim NumSF f) (@fofZ NumSF (Z.of_nat (film_height f))) _ _ 20 FY FH) as (_ & FI & EE).
    - rewrite VH. lra.
    - fold y. rewrite VH. unfold Rdiv. lra.
    - lra.
    - split; [exact FI|]. change (@fdiv NumSF (film_ylim f) (@fofZ NumSF (Z.of_nat (film_height f)))) with (@film_dy NumSF f) in EE.
      fold y in EE. rewrite VH in EE. unfold Rdiv in EE at 1 2. set (dy := val (@film_dy NumSF f)) in *. clearbody dy y.
      assert (K : u * Rabs (y * / H) <= u * (2 * / W + (u * (401 / 100 * / W) + 4 * u / 1000000 * / H))) by (apply Rmult_le_compat_l; lra).
      assert (K2 : u * (u * (401 / 100 * / W) + 4 * u / 1000000 * / H) <= 1 / 1000000000 * (u * / W) + 1 / 1000000000 * (u * / H)).
      { assert (u * (u * / W) <= 1 / 4000000000000000 * (u * / W)) by (apply Rmult_le_compat_r; lra). assert (u * (u * / H) <= 1 / 4000000000000000 * (u * / H)) by (apply Rmult_le_compat_r; lra). nra. }
      replace (dy - 2 * / W) with ((dy - y * / H) + (y * / H - 2 * / W)) by ring. apply (Rle_trans _ _ _ (Rabs_triang _ _)). lra.
  Qed.
  Lemma y_near : near 1 0 8 135 (@fsub NumSF (@fadd NumSF (@fdiv NumSF (film_dy f) f2) (@fmul NumSF (fofZ (Z.of_nat py)) (film_dy f))) (@fdiv NumSF (film_ylim f) f2)) (- film_z f py).
  Proof.
    destruct sizes as (A & B & C & D & E). destruct recips as (R1 & R2 & R3 & R4 & R5 & R6 & R7 & R8). destruct dy_err as [FD ED]. destruct ylim_err as [FY EY]. destruct u_tiny as [U0 U1].
    assert (UW : 0 <= u * / W <= u) by nra. assert (UHH : 0 <= u * / H <= u) by nra.
    pose proof (half_near _ (2 * / W) (u * (602 / 100 * / W) + 5 * u / 1000000 * / H + u / 1000000) 1 (31/10) FD ltac:(lra) ltac:(lra) ltac:(lra) ED ltac:(lra) ltac:(lra)) as N1.
    assert (KY : (Z.of_nat py <= 65536)%Z) by (destruct HF as (_ & _ & _ & H1 & _); lia).
    assert (KE : Q * (u * (602 / 100 * / W) + 5 * u / 1000000 * / H + u / 1000000) <= 483/10 * u).
    { replace (Q * (u * (602 / 100 * / W) + 5 * u / 1000000 * / H + u / 1000000)) with (u * (602 / 100 * (Q * / W) + 5 / 1000000 * (Q * / H) + Q * / 1000000)) by (field; lra).
      assert (602 / 100 * (Q * / W) + 5 / 1000000 * (Q * / H) + Q * / 1000000 <= 483/10) by lra. nra. }
    pose proof (times_near py _ (2 * / W) _ 16 (483/10) KY FD ltac:(lra) ltac:(fold Q; lra) ltac:(lra) ED KE ltac:(lra)) as N2. fold Q in N2.
    pose proof (near_add 1 ltac:(lra) ltac:(lra) 0 _ _ _ _ 17 (858/10) _ _ _ _ N1 N2 ltac:(lia) ltac:(lra) ltac:(lra) ltac:(lra) ltac:(lra) ltac:(lra) ltac:(lra) ltac:(lra) ltac:(lra)) as N3.
    assert (QW : Q * / W + / W <= H * / W) by nra. assert (QW0 : 0 <= Q * / W) by nra.
    assert (Q3 : Rabs (2 * / W / 2 + Q * (2 * / W)) <= 16 * 1 ^ 0).
    { cbn [pow]. rewrite Rabs_pos_eq by lra. lra. }
    apply (near_refine _ _ _ _ 16) in N3; [|exact Q3].
    assert (N4 : near 1 0 8 (242/10) (@fdiv NumSF (film_ylim f) f2) (2 * (H * / W) / 2)).
    { assert (UH : u * (H * / W) <= 8 * u) by nra. pose proof (half_near _ (2 * (H * / W)) (u * (401 / 100 * (H * / W)) + 4 * u / 1000000) 8 (161/10) FY ltac:(nra) ltac:(lra) ltac:(lra) EY ltac:(lra) ltac:(lra)) as K. apply (near_weaken 1 ltac:(lra) 0 _ _ 8 (242/10)) in K; [exact K|lra|lra]. }
    pose proof (near_sub 1 ltac:(lra) ltac:(lra) 0 _ _ _ _ 24 135 _ _ _ _ N3 N4 ltac:(lia) ltac:(lra) ltac:(lra) ltac:(lra) ltac:(lra) ltac:(lra) ltac:(lra) ltac:(lra) ltac:(lra)) as N5.
    assert (EX : 2 * / W / 2 + Q * (2 * / W) - 2 * (H * / W) / 2 = - film_z f py) by (unfold film_z; fold W H Q; field; lra). rewrite EX in N5.
    apply (near_refine _ _ _ _ 8) in N5; [exact N5|]. rewrite <- EX. cbn [pow]. apply Rabs_le. lra.
  Qed.
  Lemma film_bounds : Rabs (film_x f px) <= 1 /\ Rabs (film_z f py) <= 8.
  Proof.
    destruct x_near as (_ & A & _). destruct y_near as (_ & B & _). cbn [pow] in A, B. rewrite Rabs_Ropp in B. lra.
  Qed.
End Film.

(** ** the direction *)
Lemma nearv_scale m1 c1 m2 c2 m c (a : VecF) (x : @F NumSF) (r : VecR) (q : R) : nearv 1 0 m1 c1 a r -> near 1 0 m2 c2 x q ->
  0 <= m1 <= 1000 -> 0 <= m2 <= 1000 -> 0 <= c1 <= 1000 -> 0 <= c2 <= 1000 -> m1 * m2 <= m -> c1 * m2 + m1 * c2 + m1 * m2 + 2 / 1000 <= c -> c <= 1000000 ->
  nearv 1 0 m c (vscale a x) (times q r).
Proof.
  intros (X & Y & Z) HQ A1 A2 A3 A4 A5 A6 A7.
  split; [|split]; unfold vscale, times; cbn [vx vy vz pt]; rewrite (Rmult_comm q);
    [apply (near_mul 1 ltac:(lra) ltac:(lra) 0 0 _ _ _ _ m c _ _ _ _ X HQ)|apply (near_mul 1 ltac:(lra) ltac:(lra) 0 0 _ _ _ _ m c _ _ _ _ Y HQ)
    |apply (near_mul 1 ltac:(lra) ltac:(lra) 0 0 _ _ _ _ m c _ _ _ _ Z HQ)]; first [lia|assumption].
Qed.
Lemma nearv_add m1 c1 m2 c2 m c (a b : VecF) (r q : VecR) : nearv 1 0 m1 c1 a r -> nearv 1 0 m2 c2 b q ->
  0 <= m1 -> 0 <= m2 -> 0 <= c1 -> 0 <= c2 -> m1 + m2 <= m -> c1 + c2 + (m1 + m2) + 1 / 1000 <= c -> m <= 1000000 -> c <= 1000000 ->
  nearv 1 0 m c (@vadd NumSF a b) (plus r q).
Proof.
  intros (A1 & A2 & A3) (B1 & B2 & B3). intros. split; [|split]; cbn [vx vy vz vadd plus pt];
    [apply (near_add 1 ltac:(lra) ltac:(lra) 0 _ _ _ _ _ _ _ _ _ _ A1 B1)|apply (near_add 1 ltac:(lra) ltac:(lra) 0 _ _ _ _ _ _ _ _ _ _ A2 B2)
    |apply (near_add 1 ltac:(lra) ltac:(lra) 0 _ _ _ _ _ _ _ _ _ _ A3 B3)]; first [lia|assumption].
Qed.
(** the squared length of a line of sight *)
Lemma sight_square (d up : VecR) (a x z : R) :
  let w := cross d up in let s := plus (plus (times a d) (times x w)) (times z up) in
  dot s s = a * a * dot d d + x * x * dot w w + z * z * dot up up + 2 * a * z * dot d up.
Proof. cbv zeta. dvec. vunf. ring. Qed.
Lemma dot_self (a : VecR) : 0 <= dot a a.
Proof. dvec. vunf. nra. Qed.
Lemma cross_square (a b : VecR) : dot (cross a b) (cross a b) = dot a a * dot b b - dot a b * dot a b.
Proof. dvec. vunf. ring. Qed.
Lemma sight_long (D M WW a x z e : R) : 1 / 2 <= a -> Rabs (D - 1) <= / 2 ^ 50 -> Rabs (M - 1) <= / 2 ^ 50 -> Rabs e <= / 2 ^ 10 -> 0 <= WW ->
  49 / 100 * (49 / 100) <= a * a * D + x * x * WW + z * z * M + 2 * a * z * e.
Proof.
  intros HA HD HM HE HW. apply Rabs_le_inv in HD. apply Rabs_le_inv in HM. apply Rabs_le_inv in HE.
  assert (0 <= x * x * WW) by (pose proof (Rle_0_sqr x) as Q; unfold Rsqr in Q; nra).
  assert (A1 : a * a * (999 / 1000) <= a * a * D) by (apply Rmult_le_compat_l; [nra|lra]).
  assert (A2 : z * z * (999 / 1000) <= z * z * M) by (apply Rmult_le_compat_l; [nra|lra]).
  assert (A3 : - (a * a + z * z) * / 2 ^ 10 <= 2 * a * z * e).
  { assert (Rabs (2 * a * z * e) <= (a * a + z * z) * / 2 ^ 10).
    { rewrite Rabs_mult. apply Rmult_le_compat; [apply Rabs_pos|apply Rabs_pos| |apply Rabs_le; lra]. apply Rabs_le.
      pose proof (Rle_0_sqr (a + z)) as Q1. pose proof (Rle_0_sqr (a - z)) as Q2. unfold Rsqr in Q1, Q2. split; lra. }
    apply Rabs_le_inv in H0. lra. }
  assert (1 / 4 <= a * a) by nra. nra.
Qed.

Lemma minus_times_opp (a b : VecR) k : minus a (times (- k) b) = plus a (times k b).
Proof. dvec. apply vec_ext; vunf; ring. Qed.
Section Sight.
  Variables (v : @View NumSF) (f : Film) (fd : @F NumSF) (px py : nat).
  Hypothesis HV : view64 v.
  Hypothesis HF : film64 f.
  Hypothesis HX : (px < film_width f)%nat.
  Hypothesis HY : (py < film_height f)%nat.
  Hypothesis FD : finite_upto 16 fd.
  Hypothesis FD2 : 1 / 2 <= val fd.
  Let S := sight64 v f (val fd) px py.
  Let x := @fsub NumSF (@fadd NumSF (@fdiv NumSF (film_dx f) f2) (@fmul NumSF (fofZ (Z.of_nat px)) (film_dx f))) (@fdiv NumSF f2 f2).
  Let y := @fsub NumSF (@fadd NumSF (@fdiv NumSF (film_dy f) f2) (@fmul NumSF (fofZ (Z.of_nat py)) (film_dy f))) (@fdiv NumSF (film_ylim f) f2).
  Let raw := @vsub NumSF (vadd (vscale (view_direction v) fd) (vscale (vcross (view_direction v) (view_up v)) x)) (vscale (view_up v) y).

  Lemma sight_near : nearv 1 0 27 240 raw S.
  Proof.
    destruct HV as ([W1 U1] & [W2 U2] & _).
    pose proof (direction_near 1 _ W1 ltac:(lra)) as N1. pose proof (direction_near 1 _ W2 ltac:(lra)) as N2.
    pose proof (nearv_cross 1 ltac:(lra) ltac:(lra) 0 0 (1001/1000) 0 (1001/1000) 0 (1003/1000) (1005/1000) (2006/1000) (41/10) _ _ _ _ N1 N2 ltac:(lia) ltac:(lra) ltac:(lra) ltac:(lra) ltac:(lra) ltac:(lra) ltac:(lra) ltac:(lra) ltac:(lra) ltac:(lra) ltac:(lra) ltac:(lra) ltac:(lra) ltac:(lra)) as N3.
    pose proof (x_near f px py HF HX HY) as NX. fold x in NX. pose proof (y_near f px py HF HX HY) as NY. fold y in NY.
    assert (ND : near 1 0 16 0 fd (val fd)).
    { apply near_exact; [apply (finite_weaken _ _ _ FD); rewrite BIG_val; lra|]. cbn [pow]. rewrite Rmult_1_r. apply FD. }
    pose proof (nearv_scale _ _ _ _ (1602/100) (1603/100) _ _ _ _ N1 ND ltac:(lra) ltac:(lra) ltac:(lra) ltac:(lra) ltac:(lra) ltac:(lra) ltac:(lra)) as M1.
    pose proof (nearv_scale _ _ _ _ (2006/1000) (323/10) _ _ _ _ N3 NX ltac:(lra) ltac:(lra) ltac:(lra) ltac:(lra) ltac:(lra) ltac:(lra) ltac:(lra)) as M2.
    pose proof (nearv_scale _ _ _ _ (801/100) (1432/10) _ _ _ _ N2 NY ltac:(lra) ltac:(lra) ltac:(lra) ltac:(lra) ltac:(lra) ltac:(lra) ltac:(lra)) as M3.
    pose proof (nearv_add _ _ _ _ (1803/100) (664/10) _ _ _ _ M1 M2 ltac:(lra) ltac:(lra) ltac:(lra) ltac:(lra) ltac:(lra) ltac:(lra) ltac:(lra) ltac:(lra)) as M4.
    pose proof (nearv_sub 1 ltac:(lra) ltac:(lra) 0 _ _ _ _ 27 240 _ _ _ _ M4 M3 ltac:(lia) ltac:(lra) ltac:(lra) ltac:(lra) ltac:(lra) ltac:(lra) ltac:(lra) ltac:(lra) ltac:(lra)) as M5.
    rewrite minus_times_opp in M5. exact M5.
  Qed.
  Lemma sight_norm : 49 / 100 <= norm S.
  Proof.
    destruct HV as ([_ U1] & [_ U2] & U3). destruct (norm_square S) as [N0 N1]. change (norm S * norm S = dot S S) in N1.
    assert (Q : 49 / 100 * (49 / 100) <= dot S S).
    { unfold S, sight64. cbv zeta. rewrite sight_square. apply sight_long; try assumption. apply dot_self. }
    rewrite <- N1 in Q. nra.
  Qed.
  Lemma sight_close : close (240 * ulp1) (val_vec raw) S.
  Proof.
    destruct sight_near as ((_ & _ & A) & (_ & _ & B) & (_ & _ & C)). cbn [pow] in A, B, C. rewrite Rmult_1_r in A, B, C. exact (conj A (conj B C)).
  Qed.
  Lemma sight_sizeable : sizeable raw.
  Proof.
    destruct sight_near as ((FX & BX & X) & (FY & BY & Y) & (FZ & BZ & Z)). cbn [pow] in X, Y, Z, BX, BY, BZ. rewrite Rmult_1_r in X, Y, Z, BX, BY, BZ.
    assert (W : forall (x : spec_float) (r : R), finite_upto BIG x -> finite_upto (bpow radix2 400) x) by (intros x0 r0 H; apply (finite_weaken _ _ _ H); apply bpow_le; lia).
    split; [exact (W _ 0 FX)|]. split; [exact (W _ 0 FY)|]. split; [exact (W _ 0 FZ)|].
    assert (SM : bpow radix2 (-400) <= / 4) by (apply Rle_trans with (bpow radix2 (-2)); [apply bpow_le; lia|cbn; lra]).
    pose proof sight_norm as N. assert (U : 240 * ulp1 <= 1 / 1000000) by (rewrite ulp1_val; lra).
    destruct (Rle_or_lt (/ 4) (Rabs (val (vx raw)))) as [|GX]; [left; lra|]. destruct (Rle_or_lt (/ 4) (Rabs (val (vy raw)))) as [|GY]; [right; left; lra|].
    destruct (Rle_or_lt (/ 4) (Rabs (val (vz raw)))) as [|GZ]; [right; right; lra|]. exfalso.
    assert (T : forall a b : R, Rabs (a - b) <= 240 * ulp1 -> Rabs a < / 4 -> Rabs b <= 26 / 100).
    { intros a b H1 H2. replace b with (a + - (a - b)) by ring. apply (Rle_trans _ _ _ (Rabs_triang _ _)). rewrite Rabs_Ropp. lra. }
    pose proof (norm_small S (26 / 100) ltac:(lra) (T _ _ X GX) (T _ _ Y GY) (T _ _ Z GZ)). lra.
  Qed.
  Lemma sight_direction : unit_vec64 (vnormalized raw) /\ close (/ 2 ^ 42) (val_vec (vnormalized raw)) (times (/ norm S) S).
  Proof.
    destruct (C97_unit raw sight_sizeable) as (F1 & (A1 & A2 & A3) & U1). split; [exact (conj F1 U1)|].
    pose proof sight_norm as N. pose proof ulp1_pos as U0.
    destruct (unit_close (val_vec raw) S (240 * ulp1) ltac:(lra) sight_close ltac:(lra) ltac:(rewrite ulp1_val; lra)) as [_ (B1 & B2 & B3)].
    assert (BB : 274 / 100 * (240 * ulp1 / norm S) <= 1343 * ulp1).
    { unfold Rdiv. assert (/ norm S <= 100 / 49). { apply Rle_trans with (/ (49 / 100)); [apply Rinv_le_contravar; lra|lra]. } nra. }
    assert (T : forall a b c : R, Rabs (a - b) <= / 2 ^ 51 -> Rabs (b - c) <= 274 / 100 * (240 * ulp1 / norm S) -> Rabs (a - c) <= / 2 ^ 42).
    { intros a b c H1 H2. apply Rabs_le_inv in H1. apply Rabs_le_inv in H2. assert (/ 2 ^ 51 = 4 * ulp1) by (rewrite ulp1_val; lra). assert (/ 2 ^ 42 = 2048 * ulp1) by (rewrite ulp1_val; lra).
      apply Rabs_le. lra. }
    exact (conj (T _ _ _ A1 B1) (conj (T _ _ _ A2 B2) (T _ _ _ A3 B3))).
  Qed.
End Sight.

(** ** C99 - the camera's ray through a pixel: it starts at the view point, has a unit direction and passes through the exact centre of
    the pixel, up to a few roundings *)
Theorem C99_camera : forall (T : Trig NumSF) (v : @View NumSF) (f : Film) px py,
  let c := pinhole_new v f in
  view64 v -> film64 f -> (px < film_width f)%nat -> (py < film_height f)%nat ->
  finite_upto 16 (ph_film_distance c) -> 1 / 2 <= val (ph_film_distance c) ->
  let ray := r_geometry (fst (gen_ray c (px, py))) in let s := sight64 v f (val (ph_film_distance c)) px py in
  origin ray = view_point v /\ unit_vec64 (direction ray) /\ close (/ 2 ^ 42) (val_vec (direction ray)) (times (/ norm s) s).
Proof.
  intros T v f px py c HV HF HX HY FD FD2 ray s. split; [reflexivity|].
  exact (sight_direction v f (ph_film_distance c) px py HV HF HX HY FD FD2).
Qed.
Print Assumptions C99_camera.

(** different pixels get different rays *)
Lemma sight_cross (d up : VecR) (a x z x' z' : R) :
  let w := cross d up in let s := plus (plus (times a d) (times x w)) (times z up) in let s' := plus (plus (times a d) (times x' w)) (times z' up) in
  dot (cross s s') w = a * (z' - z) * dot w w /\ dot (cross s s') up = - (a * (x' - x) * dot w w).
Proof. cbv zeta. split; dvec; vunf; ring. Qed.
Lemma cross_norm (a b : VecR) : norm (cross a b) <= norm a * norm b.
Proof.
  destruct (norm_square a) as [A0 A1]. destruct (norm_square b) as [B0 B1]. destruct (norm_square (cross a b)) as [C0 C1].
  change (norm a * norm a = dot a a) in A1. change (norm b * norm b = dot b b) in B1. change (norm (cross a b) * norm (cross a b) = dot (cross a b) (cross a b)) in C1.
  rewrite cross_square, <- A1, <- B1 in C1. set (p := norm a) in *. set (q := norm b) in *. set (c := norm (cross a b)) in *. set (e := dot a b) in *. clearbody p q c e.
  apply Rsqr_incr_0_var; [unfold Rsqr; nra|nra].
Qed.
Lemma cross_scaled (a b : VecR) (m n : R) (w : VecR) : m <> 0 -> n <> 0 ->
  dot (cross a b) w = m * n * dot (cross (times (/ m) a) (minus (times (/ n) b) (times (/ m) a))) w.
Proof. intros. dvec. vunf. field. split; assumption. Qed.

Section Distinct.
  Variables (v : @View NumSF) (f : Film) (fd : @F NumSF) (px py px' py' : nat).
  Hypothesis HV : view64 v.
  Hypothesis HF : film64 f.
  Hypothesis HX : (px < film_width f)%nat.
  Hypothesis HY : (py < film_height f)%nat.
  Hypothesis HX' : (px' < film_width f)%nat.
  Hypothesis HY' : (py' < film_height f)%nat.
  Hypothesis FD : finite_upto 16 fd.
  Hypothesis FD2 : 1 / 2 <= val fd.
  Let S := sight64 v f (val fd) px py.
  Let S' := sight64 v f (val fd) px' py'.
  Let d := val_vec (view_direction v).
  Let up := val_vec (view_up v).
  Let w := cross d up.

  Lemma side_square : 99 / 100 <= dot w w <= 101 / 100.
  Proof.
    destruct HV as ([_ U1] & [_ U2] & U3). fold d in U1, U3. fold up in U2, U3. unfold w. rewrite cross_square.
    set (p := dot d d) in *. set (q := dot up up) in *. set (e := dot d up) in *. clearbody p q e. apply Rabs_le_inv in U1. apply Rabs_le_inv in U2. apply Rabs_le_inv in U3. nra.
  Qed.
  Lemma length_bound (S0 : VecR) (a : VecF) : nearv 1 0 27 240 a S0 -> norm S0 <= 47.
  Proof.
    intros ((_ & A & _) & (_ & B & _) & (_ & C & _)). cbn [pow] in A, B, C. rewrite Rmult_1_r in A, B, C. pose proof (norm_small S0 27 ltac:(lra) A B C). lra.
  Qed.
  Lemma same_pixel (e : VecR) : close (/ 2 ^ 42) e (times (/ norm S) S) -> close (/ 2 ^ 42) e (times (/ norm S') S') -> px = px' /\ py = py'.
  Proof.
    intros (A1 & A2 & A3) (B1 & B2 & B3).
    pose proof (sight_norm v f fd px py HV FD2) as N1. fold S in N1. pose proof (sight_norm v f fd px' py' HV FD2) as N2. fold S' in N2.
    pose proof (length_bound _ _ (sight_near v f fd px py HV HF HX HY FD)) as L1. fold S in L1.
    pose proof (length_bound _ _ (sight_near v f fd px' py' HV HF HX' HY' FD)) as L2. fold S' in L2.
    pose proof side_square as SS.
    set (q := minus (times (/ norm S') S') (times (/ norm S) S)).
    assert (QN : norm q <= 35 / 10 * / 2 ^ 42).
    { assert (T : forall a b c : R, Rabs (a - b) <= / 2 ^ 42 -> Rabs (a - c) <= / 2 ^ 42 -> Rabs (c - b) <= 2 * / 2 ^ 42).
      { intros a b c H1 H2. apply Rabs_le_inv in H1. apply Rabs_le_inv in H2. apply Rabs_le. lra. }
      pose proof (norm_small q (2 * / 2 ^ 42) ltac:(lra) (T _ _ _ A1 B1) (T _ _ _ A2 B2) (T _ _ _ A3 B3)). lra. }
    assert (UN : norm (times (/ norm S) S) = 1).
    { rewrite norm_scaled, Rabs_pos_eq by (left; apply Rinv_0_lt_compat; lra). field. lra. }
    assert (K : forall z, norm z <= 101 / 100 -> Rabs (dot (cross S S') z) <= / 2 ^ 28).
    { intros z Hz. rewrite (cross_scaled S S' (norm S) (norm S') z) by lra. fold q. rewrite Rabs_mult.
      assert (C1 : Rabs (dot (cross (times (/ norm S) S) q) z) <= 35 / 10 * / 2 ^ 42 * (101 / 100)).
      { apply (Rle_trans _ _ _ (dot_le_norms _ _)). apply Rmult_le_compat; [apply norm_square|apply norm_square| |exact Hz].
        apply (Rle_trans _ _ _ (cross_norm _ _)). rewrite UN. lra. }
      rewrite Rabs_mult, !Rabs_pos_eq by lra.
      apply Rle_trans with (47 * 47 * (35 / 10 * / 2 ^ 42 * (101 / 100))); [|lra].
      apply Rmult_le_compat; [nra|apply Rabs_pos| |exact C1]. apply Rmult_le_compat; lra. }
    assert (KW : norm w <= 101 / 100).
    { destruct (norm_square w) as [W0 W1]. change (norm w * norm w = dot w w) in W1. nra. }
    assert (KU : norm up <= 101 / 100).
    { destruct HV as (_ & [_ U2] & _). fold up in U2. destruct (norm_square up) as [W0 W1]. change (norm up * norm up = dot up up) in W1. apply Rabs_le_inv in U2. nra. }
    pose proof (K w KW) as E1. pose proof (K up KU) as E2.
    destruct (sight_cross d up (val fd) (film_x f px) (film_z f py) (film_x f px') (film_z f py')) as [I1 I2]. cbv zeta in I1, I2.
    change (dot (cross S S') w = val fd * (film_z f py' - film_z f py) * dot w w) in I1. change (dot (cross S S') up = - (val fd * (film_x f px' - film_x f px) * dot w w)) in I2.
    rewrite I1 in E1. rewrite I2, Rabs_Ropp in E2.
    assert (Z : forall g : R, Rabs (val fd * g * dot w w) <= / 2 ^ 28 -> Rabs g <= / 2 ^ 26).
    { intros g Hg. rewrite !Rabs_mult, (Rabs_pos_eq (val fd)), (Rabs_pos_eq (dot w w)) in Hg by lra. pose proof (Rabs_pos g).
      assert (1 / 2 * Rabs g * (99 / 100) <= val fd * Rabs g * dot w w) by (apply Rmult_le_compat; [nra|lra|apply Rmult_le_compat_r; lra|lra]). lra. }
    apply Z in E1. apply Z in E2.
    destruct (sizes f px py HF HX HY) as (BW & _). set (W := INR (film_width f)) in *.
    assert (IW : / 65536 <= / W) by (apply Rinv_le_contravar; lra).
    assert (EQ : forall a b : nat, Rabs (2 * / W * (INR b - INR a)) <= / 2 ^ 26 -> a = b).
    { intros a b H. destruct (Nat.eq_dec a b) as [|NE]; [assumption|]. exfalso.
      assert (1 <= Rabs (INR b - INR a)).
      { destruct (Nat.lt_gt_cases a b) as [G _]. destruct (G NE) as [O|O]; apply le_INR in O; rewrite S_INR in O; [rewrite Rabs_pos_eq by lra; lra|rewrite Rabs_left by lra; lra]. }
      rewrite Rabs_mult, Rabs_pos_eq in H by lra. nra. }
    split; apply EQ.
    - replace (2 * / W * (INR px' - INR px)) with (film_x f px' - film_x f px) by (unfold film_x; fold W; field; lra). exact E2.
    - rewrite <- Rabs_Ropp. replace (- (2 * / W * (INR py' - INR py))) with (film_z f py' - film_z f py) by (unfold film_z; fold W; field; lra). exact E1.
  Qed.
End Distinct.
Theorem C99_distinct : forall (T : Trig NumSF) (v : @View NumSF) (f : Film) px py px' py',
  let c := pinhole_new v f in
  view64 v -> film64 f -> (px < film_width f)%nat -> (py < film_height f)%nat -> (px' < film_width f)%nat -> (py' < film_height f)%nat ->
  finite_upto 16 (ph_film_distance c) -> 1 / 2 <= val (ph_film_distance c) ->
  direction (r_geometry (fst (gen_ray c (px, py)))) = direction (r_geometry (fst (gen_ray c (px', py')))) -> px = px' /\ py = py'.
Proof.
  intros T v f px py px' py' c HV HF HX HY HX' HY' FD FD2 E.
  destruct (C99_camera T v f px py HV HF HX HY FD FD2) as (_ & _ & A). destruct (C99_camera T v f px' py' HV HF HX' HY' FD FD2) as (_ & _ & B).
  fold c in A, B. rewrite <- E in B. exact (same_pixel v f (ph_film_distance c) px py px' py' HV HF HX HY HX' HY' FD FD2 _ A B).
Qed.
Print Assumptions C99_distinct.

(** A concrete case: a view along y, the film of the program's default size, a field of view of about ninety degrees *)
Definition view_along_y : @View NumSF := mkView (@V3 NumSF (sf_ofZ 1) (sf_ofZ 2) (sf_ofZ 3)) (@V3 NumSF (sf_ofZ 0) (sf_ofZ 1) (sf_ofZ 0)) (@V3 NumSF (sf_ofZ 0) (sf_ofZ 0) (sf_ofZ 1)) (sf_ofZ 90).
Definition unit_tangent : Trig NumSF := {| fpi := @flit NumSF 314159 100000; fcos := fun x => x; fsin := fun x => x; ftan := fun _ => @f1 NumSF; facos := fun x => x; fexp := fun x => x; fln := fun x => x; fpow := fun x _ => x |}.
Example C99_camera_hyp : view64 view_along_y /\ film64 (mkFilm 512 384) /\ (511 < 512)%nat /\ (383 < 384)%nat /\
  let c := @pinhole_new NumSF unit_tangent view_along_y (mkFilm 512 384) in finite_upto 16 (ph_film_distance c) /\ 1 / 2 <= val (ph_film_distance c).
Proof.
  assert (A0 : Rabs (IZR 0) <= 2) by (rewrite Rabs_pos_eq; lra). assert (A1 : Rabs (IZR 1) <= 2) by (rewrite Rabs_pos_eq; lra).
  destruct (small_int 0 2 ltac:(lia) A0) as [V0 F0]. destruct (small_int 1 2 ltac:(lia) A1) as [V1 F1].
  split; [|split; [|split; [lia|split; [lia|]]]].
  - split; [|split].
    + split; [exact (conj F0 (conj F1 F0))|]. unfold view_along_y, val_vec, dot, pt. cbn [view_direction view_up vx vy vz]. rewrite V0, V1. apply Rabs_le. split; lra.
    + split; [exact (conj F0 (conj F0 F1))|]. unfold view_along_y, val_vec, dot, pt. cbn [view_direction view_up vx vy vz]. rewrite V0, V1. apply Rabs_le. split; lra.
    + unfold view_along_y, val_vec, dot, pt. cbn [view_direction view_up vx vy vz]. rewrite V0, V1. apply Rabs_le. split; lra.
  - unfold film64. cbn [film_width film_height]. lia.
  - cbv zeta. cbn [pinhole_new ph_film_distance]. cbn [ftan unit_tangent].
    assert (E : (@fdiv NumSF f1 f1 : spec_float) = sf_ofZ 1) by (vm_compute; reflexivity). rewrite E. split; [apply (finite_weaken _ _ _ F1); lra|]. rewrite V1. lra.
Qed.
