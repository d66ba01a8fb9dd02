(** * Property C100: refracted rays in the program's own arithmetic (binary64, every operation rounded)

    The refracted direction is not renormalised by the program; the statements say how far its length can drift. *)
From Coq Require Import ZArith SpecFloat Reals Lra Lia Psatz List.
From Flocq Require Import Core BinarySingleNaN Relative.
From Verif Require Import Num NumR NumSF SFBridge FloatOps FloatRound FloatError Geometry Triangle SpecGeom TriangleProofs P_Exact
  Colour Ray Samplers Material FloatSlab P_FloatHit P_FloatUnit P_FloatQuery P_FloatDir P_FloatCamera.
Import ListNotations.
#[local] Existing Instance Hprec.
#[local] Existing Instance Hmax.
#[local] Existing Instance valid64.
Open Scope R_scope.

(** ** the vocabulary of the statements *)
(** a finite vector whose squared length differs from one by at most e *)
Definition nearly_unit (e : R) (v : VecF) : Prop := within 2 v /\ Rabs (dot (val_vec v) (val_vec v) - 1) <= e.
(** an index of refraction between 1 and 4 *)
Definition index64 (x : @F NumSF) : Prop := finite_upto 4 x /\ 1 <= val x.

Notation u := ulp1.
Lemma u_tiny' : 0 < u <= 1 / 4000000000000000.
Proof. split; [exact ulp1_pos|]. rewrite ulp1_val. lra. Qed.
Lemma sqrt_zero B (x : @F NumSF) : finite_upto B x -> val x = 0 -> val (@fsqrt NumSF x) = 0 /\ finite_upto B (@fsqrt NumSF x).
Proof.
  intros FX V. destruct x as [s|s| |s m e].
  - change (@fsqrt NumSF (S754_zero s)) with (S754_zero s). exact (conj V FX).
  - destruct FX as (_ & C & _). discriminate C.
  - destruct FX as (_ & C & _). discriminate C.
  - exfalso. unfold val, SF2R in V. apply eq_0_F2R in V. destruct s; discriminate V.
Qed.
Lemma clamp_val (x : @F NumSF) : finite_upto BIG x -> val (fclamp x f0 FMAX) = Rmax 0 (val x) /\ finite_upto BIG (fclamp x f0 FMAX).
Proof.
  intros FX. destruct f0_float as [V0 F0]. destruct fmax_float as [FM VM].
  assert (B0 : finite_upto BIG (@f0 NumSF)) by (apply (finite_weaken _ _ _ F0); rewrite BIG_val; lra).
  unfold fclamp. rewrite (ltb_val _ _ _ FX B0), V0. destruct (Rlt_bool_spec (val x) 0) as [L|L].
  - rewrite V0, Rmax_left by lra. exact (conj eq_refl B0).
  - assert (FX' : finite_upto (bpow radix2 1024) x) by (apply (finite_weaken _ _ _ FX); apply bpow_le; lia).
    rewrite (ltb_val _ _ _ FM FX'). rewrite Rlt_bool_false.
    + rewrite Rmax_right by lra. exact (conj eq_refl FX).
    + left. apply Rle_lt_trans with (bpow radix2 1000); [|exact VM]. destruct FX as (_ & _ & XB). apply Rle_trans with BIG; [|apply bpow_le; lia]. apply Rabs_le_inv in XB. lra.
Qed.
Lemma max_close a b e : Rabs (a - b) <= e -> Rabs (Rmax 0 a - Rmax 0 b) <= e.
Proof.
  intros H. apply Rabs_le_inv in H. unfold Rmax. destruct (Rle_dec 0 a), (Rle_dec 0 b); apply Rabs_le; lra.
Qed.

(** the exact refracted vector for a given cosine behind the surface, and its squared length *)
Definition refracted_vec (d n : VecR) (r k : R) : VecR := plus (times r d) (times k n).
Lemma refracted_square (d n : VecR) r k : dot (refracted_vec d n r k) (refracted_vec d n r k) = r * r * dot d d + 2 * r * k * dot d n + k * k * dot n n.
Proof. unfold refracted_vec. dvec. vunf. ring. Qed.
Lemma refracted_cross (d n : VecR) r k : cross (refracted_vec d n r k) n = times r (cross d n).
Proof. unfold refracted_vec. dvec. apply vec_ext; vunf; ring. Qed.
Lemma refracted_dot (d n : VecR) r k : dot (refracted_vec d n r k) n = r * dot d n + k * dot n n.
Proof. unfold refracted_vec. dvec. vunf. ring. Qed.

Section Refract.
  Variables (d n : VecF) (n1 ri : @F NumSF).
  Hypothesis HD : nearly_unit (/ 2 ^ 20) d.
  Hypothesis HN : unit_vec64 n.
  Hypothesis HS : dot (val_vec d) (val_vec n) <= 0.
  Hypothesis I1 : index64 n1.
  Hypothesis I2 : index64 ri.
  Let D := val_vec d.
  Let M := val_vec n.
  Let C := - dot D M.                                   (* the exact cosine before the surface *)
  Let c1 := @fabs NumSF (vdot d n).
  Let n2 := if @fltb NumSF (fabs (@fsub NumSF n1 ri)) (flit 1 10000000) then f1 else ri.
  Let r := val n1 / val n2.
  Let s1 := Rmax 0 (1 - C * C).
  Let sin1 := fclamp (@fsub NumSF f1 (@fmul NumSF c1 c1)) f0 FMAX.
  Let sin2 := @fdiv NumSF (@fmul NumSF (@fmul NumSF n1 n1) sin1) (@fmul NumSF n2 n2).

  Lemma medium : index64 n2.
  Proof. unfold n2. destruct (fltb _ _); [|exact I2]. destruct f1_float as [V F1]. split; [apply (finite_weaken _ _ _ F1); lra|]. rewrite V. lra. Qed.
  Lemma indices : 1 <= val n1 <= 4 /\ 1 <= val n2 <= 4 /\ 0 < r <= 4 /\ r * val n2 = val n1.
  Proof.
    destruct I1 as [(_ & _ & A) A1]. destruct medium as [(_ & _ & B) B1]. apply Rabs_le_inv in A. apply Rabs_le_inv in B.
    assert (E : r * val n2 = val n1) by (unfold r; field; lra). split; [lra|]. split; [lra|]. split; [|exact E].
    assert (0 < / val n2 <= 1). { split; [apply Rinv_0_lt_compat; lra|]. rewrite <- Rinv_1. apply Rinv_le_contravar; lra. }
    unfold r, Rdiv. nra.
  Qed.
  Lemma index_near (x : @F NumSF) : index64 x -> near 1 0 4 0 x (val x).
  Proof. intros [A _]. apply near_exact; [apply (finite_weaken _ _ _ A); rewrite BIG_val; lra|]. cbn [pow]. rewrite Rmult_1_r. apply A. Qed.
  Lemma dirs : nearv 1 0 (1001/1000) 0 d D /\ nearv 1 0 (1001/1000) 0 n M /\ 0 <= C <= 1001 / 1000 /\ C * C <= dot D D * dot M M.
  Proof.
    destruct HD as [W1 U1]. destruct HN as [W2 U2]. assert (P20 : / 2 ^ 20 <= 1 / 1000) by lra.
    split; [apply direction_near; [exact W1|lra]|]. split; [apply direction_near; [exact W2|lra]|].
    pose proof (unit_norm d (/ 2 ^ 20) ltac:(lra) U1) as N1. pose proof (unit_norm n (/ 2 ^ 50) ltac:(lra) U2) as N2. pose proof (dot_le_norms D M) as K.
    fold D in N1. fold M in N2. fold D M in HS. split.
    - unfold C. split; [lra|]. rewrite Rabs_left1 in K by exact HS. apply (Rle_trans _ _ _ K). apply Rle_trans with ((1 + / 2 ^ 20) * (1 + / 2 ^ 50)); [apply Rmult_le_compat; lra|lra].
    - pose proof (cross_square D M) as Q. pose proof (dot_self (cross D M)) as Q0. unfold C. lra.
  Qed.
  Lemma c1_near : near 1 0 (1001/1000) (81/10) c1 C.
  Proof.
    destruct dirs as (ND & NN & CB & _).
    destruct (near_dot 1 ltac:(lra) ltac:(lra) 0 0 (1001/1000) 0 (1001/1000) 0 (1003/1000) (1005/1000) (2006/1000) (402/100) (31/10) (81/10) d n D M ND NN) as (A & _ & B); try lra; [lia|].
    destruct (abs_val _ _ A) as [VA FA]. split; [exact FA|]. split; [cbn [pow]; rewrite Rabs_pos_eq; lra|].
    unfold c1. rewrite VA. cbn [pow] in *. rewrite Rmult_1_r in *. unfold C in *.
    apply (Rle_trans _ (Rabs (val (vdot d n) - dot D M))); [|exact B].
    replace (- dot D M) with (Rabs (dot D M)) by (apply Rabs_left1; lra). apply Rabs_triang_inv2.
  Qed.
  Lemma one_near : near 1 0 1 0 (@f1 NumSF) 1.
  Proof.
    destruct f1_float as [V F1]. split; [apply (finite_weaken _ _ _ F1); rewrite BIG_val; lra|]. cbn [pow]. rewrite V, Rabs_pos_eq by lra. split; [lra|].
    unfold Rminus. rewrite Rplus_opp_r, Rabs_R0. lra.
  Qed.
  Lemma s1_range : 0 <= s1 <= 1.
  Proof. unfold s1. pose proof (Rmax_l 0 (1 - C * C)). split; [assumption|]. apply Rmax_lub; [lra|]. nra. Qed.
  Lemma sin1_near : near 1 0 1 (194/10) sin1 s1 /\ 0 <= val sin1.
  Proof.
    pose proof c1_near as N1. pose proof one_near as N0.
    pose proof (near_mul 1 ltac:(lra) ltac:(lra) 0 0 _ _ _ _ (1003/1000) (1733/100) _ _ _ _ N1 N1 ltac:(lia) ltac:(lra) ltac:(lra) ltac:(lra) ltac:(lra) ltac:(lra) ltac:(lra) ltac:(lra)) as N2.
    pose proof (near_sub 1 ltac:(lra) ltac:(lra) 0 _ _ _ _ (2003/1000) (194/10) _ _ _ _ N0 N2 ltac:(lia) ltac:(lra) ltac:(lra) ltac:(lra) ltac:(lra) ltac:(lra) ltac:(lra) ltac:(lra) ltac:(lra)) as (A & _ & B).
    destruct (clamp_val _ A) as [VC FC]. unfold sin1. split; [|rewrite VC; apply Rmax_l]. split; [exact FC|]. pose proof s1_range. split; [cbn [pow]; rewrite Rabs_pos_eq; lra|].
    rewrite VC. apply max_close. exact B.
  Qed.
  (** the squared sine behind the surface *)
  Lemma sin2_near : finite_upto BIG sin2 /\ 0 <= val sin2 /\ Rabs (val sin2 - r * r * s1) <= 361 * u + u * val sin2.
  Proof.
    destruct sin1_near as [N1 P1]. destruct indices as (A & B & Rr & E). pose proof s1_range as S1. destruct u_tiny' as [U0 U1].
    pose proof (index_near _ I1) as NI. pose proof (index_near _ medium) as NJ.
    pose proof (near_mul 1 ltac:(lra) ltac:(lra) 0 0 _ _ _ _ 16 (1601/100) _ _ _ _ NI NI ltac:(lia) ltac:(lra) ltac:(lra) ltac:(lra) ltac:(lra) ltac:(lra) ltac:(lra) ltac:(lra)) as N2.
    pose proof (near_mul 1 ltac:(lra) ltac:(lra) 0 0 _ _ _ _ 16 (343) _ _ _ _ N2 N1 ltac:(lia) ltac:(lra) ltac:(lra) ltac:(lra) ltac:(lra) ltac:(lra) ltac:(lra) ltac:(lra)) as (FA & _ & EA).
    cbn [pow] in EA. rewrite Rmult_1_r in EA. cbn [Nat.add] in *.
    destruct medium as [FJ _].
    assert (JJ : val (@fmul NumSF n2 n2) = rnd64 (val n2 * val n2) /\ finite_upto (bpow radix2 80) (@fmul NumSF n2 n2)).
    { apply (mul_val 80 ltac:(lia) _ _ _ _ FJ FJ). rewrite Rabs_pos_eq by nra. apply Rle_trans with 16; [nra|cbn; lra]. }
    destruct JJ as [VJ FB]. pose proof (rnd_near (val n2 * val n2)) as RJ. rewrite <- VJ in RJ. rewrite (Rabs_pos_eq (val n2 * val n2)) in RJ by nra.
    set (q := val n2 * val n2) in *. assert (Q1 : 1 <= q <= 16) by (unfold q; nra).
    set (b := val (@fmul NumSF n2 n2)) in *.
    assert (B1 : 1 <= b).
    { rewrite VJ. replace 1 with (rnd64 (IZR 1)) by (apply (rnd_int 1); lia). apply rnd_le. lra. }
    set (a := val (@fmul NumSF (@fmul NumSF n1 n1) sin1)) in *.
    assert (A0 : 0 <= a).
    { destruct N2 as (F2 & _ & _). destruct N1 as (F1 & _ & _). destruct I1 as [FI _].
      assert (V2 : 0 <= val (@fmul NumSF n1 n1)).
      { destruct (mul_val 80 ltac:(lia) _ _ _ _ FI FI) as [V _]; [rewrite Rabs_pos_eq by nra; apply Rle_trans with 16; [nra|cbn; lra]|]. rewrite V.
        replace 0 with (rnd64 (IZR 0)) by (apply (rnd_int 0); lia). apply rnd_le. nra. }
      destruct (mul_val 200 ltac:(lia) _ _ _ _ F2 F1) as [V _].
      - destruct F2 as (_ & _ & B2). destruct F1 as (_ & _ & B3). rewrite Rabs_mult. apply Rle_trans with (BIG * BIG); [apply Rmult_le_compat; try apply Rabs_pos; assumption|].
        rewrite <- bpow_plus. apply bpow_le. lia.
      - unfold a. rewrite V. replace 0 with (rnd64 (IZR 0)) by (apply (rnd_int 0); lia). apply rnd_le. nra. }
    assert (IB : 0 < / b <= 1). { split; [apply Rinv_0_lt_compat; lra|]. rewrite <- Rinv_1. apply Rinv_le_contravar; lra. }
    assert (EQ : r * r * s1 = val n1 * val n1 * s1 * / q) by (unfold r, q; field; lra).
    assert (AB : Rabs (a * / b - r * r * s1) <= 3595 / 10 * u).
    { rewrite EQ. replace (a * / b - val n1 * val n1 * s1 * / q) with ((a - val n1 * val n1 * s1) * / b + val n1 * val n1 * s1 * / b * / q * (q - b)) by (field; lra).
      apply (Rle_trans _ _ _ (Rabs_triang _ _)). rewrite !Rabs_mult, (Rabs_pos_eq (/ b)), (Rabs_pos_eq (/ q)), (Rabs_pos_eq (val n1)), (Rabs_pos_eq s1) by (try lra; left; apply Rinv_0_lt_compat; lra).
      assert (K1 : Rabs (a - val n1 * val n1 * s1) * / b <= 343 * u * 1) by (apply Rmult_le_compat; [apply Rabs_pos|lra|exact EA|lra]).
      assert (K2 : / q * Rabs (q - b) <= 1001 / 1000 * u).
      { apply Rle_trans with (/ q * (u * q + u / 1000000)); [apply Rmult_le_compat_l; [left; apply Rinv_0_lt_compat; lra|rewrite Rabs_minus_sym; exact RJ]|].
        rewrite Rmult_plus_distr_l. replace (/ q * (u * q)) with u by (field; lra). assert (0 < / q <= 1). { split; [apply Rinv_0_lt_compat; lra|]. rewrite <- Rinv_1. apply Rinv_le_contravar; lra. } nra. }
      assert (K3 : 0 <= val n1 * val n1 * s1 * / b <= 16).
      { assert (0 <= val n1 * val n1 * s1 <= 16) by nra. nra. }
      assert (0 <= / q * Rabs (q - b)) by (apply Rmult_le_pos; [left; apply Rinv_0_lt_compat; lra|apply Rabs_pos]).
      replace (val n1 * val n1 * s1 * / b * / q * Rabs (q - b)) with (val n1 * val n1 * s1 * / b * (/ q * Rabs (q - b))) by ring. nra. }
    assert (AB0 : 0 <= a * / b) by nra. assert (AB1 : a * / b <= 17).
    { apply Rabs_le_inv in AB. assert (r * r * s1 <= 16) by nra. nra. }
    destruct (div_val 80 ltac:(lia) _ _ _ _ FA FB) as [VS FS]; [fold b; lra|fold a b; unfold Rdiv; rewrite Rabs_pos_eq by lra; apply Rle_trans with 17; [lra|cbn; lra]|]. fold a b in VS.
    change (val sin2 = rnd64 (a * / b)) in VS.
    split; [apply (finite_weaken _ _ _ FS); apply bpow_le; lia|]. rewrite VS. split.
    - replace 0 with (rnd64 (IZR 0)) by (apply (rnd_int 0); lia). apply rnd_le. exact AB0.
    - pose proof (rnd_near (a * / b)) as RS. rewrite (Rabs_pos_eq (a * / b)) in RS by lra. set (z := rnd64 (a * / b)) in *. set (w := a * / b) in *. clearbody z w.
      assert (ZW : u * w <= u * z + u * (u * w + u / 1000000)) by (rewrite <- Rmult_plus_distr_l; apply Rmult_le_compat_l; [lra|]; apply Rabs_le_inv in RS; lra).
      assert (UW : u * w <= u * 17) by (apply Rmult_le_compat_l; lra).
      assert (UU : u * (u * w + u / 1000000) <= u * (1 / 1000000)) by (apply Rmult_le_compat_l; lra).
      replace (z - r * r * s1) with ((z - w) + (w - r * r * s1)) by ring. apply (Rle_trans _ _ _ (Rabs_triang _ _)). lra.
  Qed.
  (** the cosine behind the surface *)
  Lemma cos2_near : val sin2 <= 1 ->
    let c2 := @fsqrt NumSF (@fsub NumSF f1 sin2) in
    finite_upto 1 c2 /\ 0 <= val c2 /\ Rabs (val c2 * val c2 - (1 - r * r * s1)) <= 366 * u.
  Proof.
    intros L c2. destruct sin2_near as (F2 & P2 & E2). destruct f1_float as [V1 F1]. destruct u_tiny' as [U0 U1].
    assert (FB : finite_upto BIG (@f1 NumSF)) by (apply (finite_weaken _ _ _ F1); rewrite BIG_val; lra).
    destruct (sub_val 80 ltac:(lia) _ _ _ FB F2) as [VW FW]; [rewrite V1, Rabs_pos_eq by lra; apply Rle_trans with 1; [lra|cbn; lra]|]. rewrite V1 in VW.
    set (s := val sin2) in *. set (w := val (@fsub NumSF f1 sin2)) in *.
    assert (W0 : 0 <= w). { rewrite VW. replace 0 with (rnd64 (IZR 0)) by (apply (rnd_int 0); lia). apply rnd_le. lra. }
    assert (W1 : w <= 1). { rewrite VW. replace 1 with (rnd64 (IZR 1)) at 2 by (apply (rnd_int 1); lia). apply rnd_le. lra. }
    pose proof (rnd_near (1 - s)) as RW. rewrite <- VW, (Rabs_pos_eq (1 - s)) in RW by lra.
    assert (WE : Rabs (w - (1 - r * r * s1)) <= 3631 / 10 * u).
    { replace (w - (1 - r * r * s1)) with ((w - (1 - s)) + - (s - r * r * s1)) by ring. apply (Rle_trans _ _ _ (Rabs_triang _ _)). rewrite Rabs_Ropp. nra. }
    assert (K : finite_upto 1 c2 /\ 0 <= val c2 /\ Rabs (val c2 * val c2 - w) <= 21 / 10 * u).
    { destruct (Rle_lt_or_eq_dec _ _ W0) as [P|P].
      - assert (SQ : 0 < sqrt w <= 1). { split; [apply sqrt_lt_R0; exact P|]. rewrite <- sqrt_1 at 1. apply sqrt_le_1_alt. exact W1. }
        destruct (sqrt_val 80 _ ltac:(lia) FW P) as [VC FC]; [fold w; apply Rle_trans with 1; [lra|cbn; lra]|]. fold w c2 in VC. fold c2 in FC.
        assert (C0 : 0 <= val c2). { rewrite VC. replace 0 with (rnd64 (IZR 0)) by (apply (rnd_int 0); lia). apply rnd_le. lra. }
        assert (C1 : val c2 <= 1). { rewrite VC. replace 1 with (rnd64 (IZR 1)) by (apply (rnd_int 1); lia). apply rnd_le. lra. }
        split; [|split; [exact C0|]].
        + destruct FC as (X1 & X2 & _). split; [exact X1|]. split; [exact X2|]. rewrite Rabs_pos_eq; lra.
        + pose proof (rnd_near (sqrt w)) as RC. rewrite <- VC, (Rabs_pos_eq (sqrt w)) in RC by lra.
          replace (val c2 * val c2 - w) with ((val c2 - sqrt w) * (val c2 + sqrt w)).
          2:{ rewrite <- (sqrt_sqrt w) at 3 by lra. ring. }
          rewrite Rabs_mult, (Rabs_pos_eq (val c2 + sqrt w)) by lra.
          assert (Rabs (val c2 - sqrt w) <= 101 / 100 * u) by nra. pose proof (Rabs_pos (val c2 - sqrt w)). nra.
      - symmetry in P. destruct (sqrt_zero _ _ FW P) as [VC FC]. fold c2 in VC, FC. rewrite VC, P.
        split; [|split; [lra|]]. + destruct FC as (X1 & X2 & _). split; [exact X1|]. split; [exact X2|]. rewrite VC, Rabs_R0. lra.
        + replace (0 * 0 - 0) with 0 by ring. rewrite Rabs_R0. lra. }
    destruct K as (K1 & K2 & K3). split; [exact K1|]. split; [exact K2|].
    replace (val c2 * val c2 - (1 - r * r * s1)) with ((val c2 * val c2 - w) + (w - (1 - r * r * s1))) by ring. apply (Rle_trans _ _ _ (Rabs_triang _ _)). lra.
  Qed.

  (** the direction *)
  Section Direction.
    Hypothesis L : val sin2 <= 1.
    Let c2 := @fsqrt NumSF (@fsub NumSF f1 sin2).
    Let K := r * C - val c2.
    Let t := fresnel_transmission_dir d n n1 c1 n2 c2.
    Let TT := refracted_vec D M r K.
    Lemma K_range : Rabs K <= 4005 / 1000 /\ K * K <= 1605 / 100.
    Proof.
      destruct (cos2_near L) as (F2 & P2 & _). fold c2 in F2, P2. destruct indices as (_ & _ & Rr & _). destruct dirs as (_ & _ & CB & _).
      destruct F2 as (_ & _ & B2). apply Rabs_le_inv in B2. assert (RC : 0 <= r * C <= 4004 / 1000) by nra.
      assert (KB : -1 <= K <= 4005 / 1000) by (unfold K; lra). split; [apply Rabs_le; lra|nra].
    Qed.
    Lemma t_near : nearv 1 0 (902/100) 68 t TT.
    Proof.
      destruct (cos2_near L) as (F2 & P2 & _). fold c2 in F2, P2. destruct indices as (A & B & Rr & E). destruct dirs as (ND & NN & CB & _). destruct K_range as [KR _].
      destruct I1 as [F1 _]. destruct medium as [FJ _].
      assert (NR : near 1 0 4 (4001/1000) (@fdiv NumSF n1 n2) r).
      { apply (finish 1 ltac:(lra) ltac:(lra) 0 4 0 4 (4001/1000) _ r r); try lra; try lia; cbn [pow].
        - rewrite Rabs_pos_eq; lra.
        - unfold Rminus. rewrite Rplus_opp_r, Rabs_R0. lra.
        - intros Q. apply (div_val 80 ltac:(lia) _ _ _ _ F1 FJ); [lra|exact Q]. }
      pose proof c1_near as NC.
      pose proof (near_mul 1 ltac:(lra) ltac:(lra) 0 0 _ _ _ _ (4004/1000) (405/10) _ _ _ _ NR NC ltac:(lia) ltac:(lra) ltac:(lra) ltac:(lra) ltac:(lra) ltac:(lra) ltac:(lra) ltac:(lra)) as N1.
      assert (N2 : near 1 0 1 0 c2 (val c2)).
      { apply near_exact; [apply (finite_weaken _ _ _ F2); rewrite BIG_val; lra|]. cbn [pow]. rewrite Rmult_1_r. apply F2. }
      pose proof (near_sub 1 ltac:(lra) ltac:(lra) 0 _ _ _ _ (5004/1000) (4551/100) _ _ _ _ N1 N2 ltac:(lia) ltac:(lra) ltac:(lra) ltac:(lra) ltac:(lra) ltac:(lra) ltac:(lra) ltac:(lra) ltac:(lra)) as N3.
      apply (near_refine _ _ _ _ (4005/1000)) in N3; [|cbn [pow]; rewrite Rmult_1_r; exact KR].
      pose proof (nearv_scale _ _ _ _ (4004/1000) (802/100) _ _ _ _ ND NR ltac:(lra) ltac:(lra) ltac:(lra) ltac:(lra) ltac:(lra) ltac:(lra) ltac:(lra)) as M1.
      pose proof (nearv_scale _ _ _ _ (4010/1000) (4957/100) _ _ _ _ NN N3 ltac:(lra) ltac:(lra) ltac:(lra) ltac:(lra) ltac:(lra) ltac:(lra) ltac:(lra)) as M2.
      pose proof (nearv_add _ _ _ _ (902/100) 68 _ _ _ _ M1 M2 ltac:(lra) ltac:(lra) ltac:(lra) ltac:(lra) ltac:(lra) ltac:(lra) ltac:(lra) ltac:(lra)) as M3.
      exact M3.
    Qed.
    Lemma t_close : close (68 * u) (val_vec t) TT.
    Proof.
      destruct t_near as ((_ & _ & X) & (_ & _ & Y) & (_ & _ & Z)). cbn [pow] in X, Y, Z. rewrite Rmult_1_r in X, Y, Z. exact (conj X (conj Y Z)).
    Qed.
    Lemma T_square : Rabs (dot TT TT - 1) <= r * r * Rabs (dot D D - 1) + 625 * u.
    Proof.
      destruct (cos2_near L) as (F2 & P2 & E2). fold c2 in F2, P2, E2. destruct indices as (A & B & Rr & E). destruct dirs as (_ & _ & CB & CS). destruct K_range as [_ KK].
      destruct HN as [_ UN]. fold M in UN. destruct HD as [_ UD]. fold D in UD. destruct u_tiny' as [U0 U1]. assert (P50 : / 2 ^ 50 = 8 * u) by (rewrite ulp1_val; lra). rewrite P50 in UN.
      assert (EQ : dot TT TT - 1 = r * r * (dot D D - C * C - s1) + (val c2 * val c2 - (1 - r * r * s1)) + K * K * (dot M M - 1)).
      { unfold TT. rewrite refracted_square. replace (dot D M) with (- C) by (unfold C; ring). unfold K. ring. }
      rewrite EQ.
      assert (Q1 : Rabs (dot D D - C * C - s1) <= Rabs (dot D D - 1) + 801 / 100 * u).
      { unfold s1, Rmax. destruct (Rle_dec 0 (1 - C * C)) as [Y|Y].
        - replace (dot D D - C * C - (1 - C * C)) with (dot D D - 1) by ring. lra.
        - apply Rnot_le_lt in Y. set (p := dot D D) in *. set (q := dot M M) in *. apply Rabs_le_inv in UN. apply Rabs_le_inv in UD.
          assert (p * q <= p * (1 + 8 * u)) by (apply Rmult_le_compat_l; lra). assert (p * u <= 1001 / 1000 * u) by (apply Rmult_le_compat_r; lra).
          assert (p - 1 <= Rabs (p - 1)) by apply Rle_abs. pose proof (Rabs_pos (p - 1)). apply Rabs_le. split; lra. }
      assert (R2 : 0 <= r * r <= 16) by nra.
      apply (Rle_trans _ _ _ (Rabs_triang _ _)). apply Rle_trans with (r * r * (Rabs (dot D D - 1) + 801 / 100 * u) + 366 * u + 1605 / 100 * (8 * u)); [|nra].
      apply Rplus_le_compat.
      - apply (Rle_trans _ _ _ (Rabs_triang _ _)). apply Rplus_le_compat; [|exact E2]. rewrite Rabs_mult, (Rabs_pos_eq (r * r)) by lra. apply Rmult_le_compat_l; lra.
      - rewrite Rabs_mult, (Rabs_pos_eq (K * K)) by nra. apply Rmult_le_compat; [nra|apply Rabs_pos|exact KK|exact UN].
    Qed.
    Lemma T_norm : norm TT <= 1001 / 1000.
    Proof.
      pose proof T_square as H. destruct HD as [_ UD]. fold D in UD. destruct indices as (_ & _ & Rr & _). destruct u_tiny' as [U0 U1]. destruct (norm_square TT) as [N0 N1]. change (norm TT * norm TT = dot TT TT) in N1.
      rewrite <- N1 in H. assert (r * r * Rabs (dot D D - 1) <= 16 * / 2 ^ 20) by (apply Rmult_le_compat; [nra|apply Rabs_pos|nra|exact UD]).
      set (z := norm TT) in *. clearbody z. apply Rabs_le_inv in H. assert (z * z <= 1001 / 1000 * (1001 / 1000)) by lra. nra.
    Qed.
    Lemma t_distance : norm (minus (val_vec t) TT) <= 1179 / 10 * u.
    Proof. destruct t_close as (X & Y & Z). destruct u_tiny' as [U0 U1]. pose proof (norm_small (minus (val_vec t) TT) (68 * u) ltac:(lra) X Y Z). lra. Qed.
    Lemma square_difference (a b : VecR) : dot a a - dot b b = dot (minus a b) (plus (minus a b) (times 2 b)).
    Proof. clear. destruct a as [a1 a2 a3], b as [b1 b2 b3]. vunf. ring. Qed.
    Lemma t_length : Rabs (dot (val_vec t) (val_vec t) - 1) <= r * r * Rabs (dot D D - 1) + / 2 ^ 43.
    Proof.
      pose proof T_square as H. pose proof T_norm as TN. pose proof t_distance as TD. destruct u_tiny' as [U0 U1].
      assert (P43 : / 2 ^ 43 = 1024 * u) by (rewrite ulp1_val; lra). rewrite P43.
      replace (dot (val_vec t) (val_vec t) - 1) with ((dot (val_vec t) (val_vec t) - dot TT TT) + (dot TT TT - 1)) by ring. apply (Rle_trans _ _ _ (Rabs_triang _ _)).
      assert (Q : Rabs (dot (val_vec t) (val_vec t) - dot TT TT) <= 1179 / 10 * u * (2003 / 1000)); [|lra].
      rewrite square_difference. apply (Rle_trans _ _ _ (dot_le_norms _ _)). apply Rmult_le_compat; [apply norm_square|apply norm_square|exact TD|].
      apply (Rle_trans _ _ _ (norm_plus_le _ _)). rewrite norm_scaled, Rabs_pos_eq by lra. lra.
    Qed.
    Lemma t_within : within 2 t.
    Proof.
      destruct t_near as ((FX & _ & X) & (FY & _ & Y) & (FZ & _ & Z)). cbn [pow] in X, Y, Z. rewrite Rmult_1_r in X, Y, Z. destruct (coord_le TT) as (CX & CY & CZ). pose proof T_norm as TN. destruct u_tiny' as [U0 U1].
      assert (W : forall (x : spec_float) (q : R), finite_upto BIG x -> Rabs (val x - q) <= 68 * u -> Rabs q <= norm TT -> finite_upto 2 x).
      { intros x q (A1 & A2 & _) B1 B2. split; [exact A1|]. split; [exact A2|]. replace (val x) with ((val x - q) + q) by ring. apply (Rle_trans _ _ _ (Rabs_triang _ _)). lra. }
      exact (conj (W _ _ FX X CX) (conj (W _ _ FY Y CY) (W _ _ FZ Z CZ))).
    Qed.
    Lemma t_tangent : close (/ 2 ^ 45) (cross (val_vec t) M) (times r (cross D M)).
    Proof.
      destruct t_close as (X & Y & Z). destruct dirs as (_ & ((_ & MX & _) & (_ & MY & _) & (_ & MZ & _)) & _). cbn [pow] in MX, MY, MZ. rewrite Rmult_1_r in MX, MY, MZ.
      assert (P45 : / 2 ^ 45 = 256 * u) by (rewrite ulp1_val; lra). destruct u_tiny' as [U0 U1].
      rewrite <- (refracted_cross D M r K). fold TT. set (a := val_vec t) in *. clearbody a.
      assert (W : forall p p' q q' m m' : R, Rabs (p - p') <= 68 * u -> Rabs (q - q') <= 68 * u -> Rabs m <= 1001 / 1000 -> Rabs m' <= 1001 / 1000 -> Rabs ((p * m - q * m') - (p' * m - q' * m')) <= / 2 ^ 45).
      { intros p p' q q' m m' H1 H2 H3 H4. replace ((p * m - q * m') - (p' * m - q' * m')) with ((p - p') * m + - ((q - q') * m')) by ring. apply (Rle_trans _ _ _ (Rabs_triang _ _)). rewrite Rabs_Ropp, !Rabs_mult.
        assert (Rabs (p - p') * Rabs m <= 68 * u * (1001 / 1000)) by (apply Rmult_le_compat; try apply Rabs_pos; assumption).
        assert (Rabs (q - q') * Rabs m' <= 68 * u * (1001 / 1000)) by (apply Rmult_le_compat; try apply Rabs_pos; assumption). lra. }
      split; [|split]; unfold cross; cbn [vx vy vz pt]; apply W; assumption.
    Qed.
    Lemma t_normal : Rabs (dot (val_vec t) M + val c2) <= / 2 ^ 45.
    Proof.
      pose proof t_distance as TD. destruct HN as [_ UN]. fold M in UN. destruct u_tiny' as [U0 U1]. pose proof (unit_norm n (/ 2 ^ 50) ltac:(lra) UN) as NN. fold M in NN. destruct K_range as [KR _].
      assert (P45 : / 2 ^ 45 = 256 * u) by (rewrite ulp1_val; lra). assert (P50 : / 2 ^ 50 = 8 * u) by (rewrite ulp1_val; lra).
      assert (EQ : dot (val_vec t) M + val c2 = dot (minus (val_vec t) TT) M + K * (dot M M - 1)).
      { rewrite dot_minus. unfold TT. rewrite refracted_dot. replace (dot D M) with (- C) by (unfold C; ring). unfold K. ring. }
      rewrite EQ. apply (Rle_trans _ _ _ (Rabs_triang _ _)). rewrite Rabs_mult.
      assert (Rabs K * Rabs (dot M M - 1) <= 4005 / 1000 * (8 * u)) by (apply Rmult_le_compat; try apply Rabs_pos; [exact KR|lra]).
      assert (Rabs (dot (minus (val_vec t) TT) M) <= 1179 / 10 * u * (1001 / 1000)); [|lra].
      apply (Rle_trans _ _ _ (dot_le_norms _ _)). apply Rmult_le_compat; [apply norm_square|apply norm_square|exact TD|lra].
    Qed.
  End Direction.
End Refract.

(** ** C100 - one refraction *)
(** the index behind a surface: that of the body, or 1 when the ray is already inside such a body *)
Definition behind64 (n1 ri n2 : @F NumSF) : Prop :=
  (n2 = f1 /\ Rabs (val n1 - val ri) <= 2 / 10 ^ 7) \/ (n2 = ri /\ 1 / (2 * 10 ^ 7) <= Rabs (val n1 - val ri)).
Lemma t7_val : Rabs (val (@flit NumSF 1 10000000) - 1 / 10 ^ 7) <= 1 / 10 ^ 20 /\ finite_upto 1 (@flit NumSF 1 10000000).
Proof.
  destruct (small_int 1 1 ltac:(lia)) as [V1 F1]; [rewrite Rabs_pos_eq; lra|]. destruct (small_int 10000000 10000000 ltac:(lia)) as [V2 F2]; [rewrite Rabs_pos_eq; lra|].
  destruct (div_val 80 ltac:(lia) _ _ _ _ F1 F2) as [V FI]; [rewrite V2; lra|rewrite V1, V2; unfold Rdiv; rewrite Rabs_pos_eq by lra; apply Rle_trans with 1; [lra|cbn; lra]|].
  rewrite V1, V2 in V. assert (E : (@flit NumSF 1 10000000 : spec_float) = @fdiv NumSF (sf_ofZ 1) (sf_ofZ 10000000)) by (vm_compute; reflexivity). rewrite E.
  pose proof (rnd_abs (1 / 10000000)) as R. rewrite <- V in R. assert (X : bpow radix2 (-1075) <= / 2 ^ 100) by (apply Rle_trans with (bpow radix2 (-100)); [apply bpow_le; lia|cbn; lra]).
  rewrite (Rabs_pos_eq (1 / 10000000)) in R by lra. unfold ulp1 in R. replace (bpow radix2 (-53)) with (/ 2 ^ 53) in R by (cbn; lra).
  assert (Z : Rabs (val (@fdiv NumSF (sf_ofZ 1) (sf_ofZ 10000000)) - 1 / 10 ^ 7) <= 1 / 10 ^ 20) by (replace (1 / 10 ^ 7) with (1 / 10000000) by lra; lra).
  split; [exact Z|]. destruct FI as (A1 & A2 & _). split; [exact A1|]. split; [exact A2|]. apply Rabs_le_inv in Z. apply Rabs_le. lra.
Qed.
Lemma behind_ok (n1 ri : @F NumSF) : index64 n1 -> index64 ri -> behind64 n1 ri (if @fltb NumSF (fabs (@fsub NumSF n1 ri)) (flit 1 10000000) then f1 else ri).
Proof.
  intros [F1 _] [F2 _]. assert (FB1 : finite_upto BIG n1) by (apply (finite_weaken _ _ _ F1); rewrite BIG_val; lra). assert (FB2 : finite_upto BIG ri) by (apply (finite_weaken _ _ _ F2); rewrite BIG_val; lra).
  destruct F1 as (_ & _ & B1). destruct F2 as (_ & _ & B2). apply Rabs_le_inv in B1. apply Rabs_le_inv in B2.
  destruct (sub_val 80 ltac:(lia) _ _ _ FB1 FB2) as [V FI]; [apply Rle_trans with 8; [apply Rabs_le; lra|cbn; lra]|].
  assert (FI' : finite_upto BIG (@fsub NumSF n1 ri)) by (apply (finite_weaken _ _ _ FI); apply bpow_le; lia). destruct (abs_val _ _ FI') as [VA FA].
  destruct t7_val as [T7 FT]. assert (FT' : finite_upto BIG (@flit NumSF 1 10000000)) by (apply (finite_weaken _ _ _ FT); rewrite BIG_val; lra).
  rewrite (ltb_val _ _ _ FA FT'), VA, V. pose proof (rnd_near (val n1 - val ri)) as RN. destruct u_tiny' as [U0 U1]. unfold behind64.
  set (z := val n1 - val ri) in *. set (h := val (@flit NumSF 1 10000000)) in *. clearbody h. apply Rabs_le_inv in T7.
  assert (ZB : Rabs z <= 8) by (unfold z; apply Rabs_le; lra). assert (UZ : u * Rabs z <= u * 8) by (apply Rmult_le_compat_l; lra). clearbody z. set (w := rnd64 z) in *. clearbody w.
  assert (D1 : Rabs w <= Rabs z + 9 * u). { replace w with ((w - z) + z) by ring. apply (Rle_trans _ _ _ (Rabs_triang _ _)). lra. }
  assert (D2 : Rabs z <= Rabs w + 9 * u). { replace z with (- (w - z) + w) at 1 by ring. apply (Rle_trans _ _ _ (Rabs_triang _ _)). rewrite Rabs_Ropp. lra. }
  destruct (Rlt_bool_spec (Rabs w) h) as [Y|Y]; [left|right]; (split; [reflexivity|]); lra.
Qed.
Lemma behind_index n1 ri n2 : index64 ri -> behind64 n1 ri n2 -> index64 n2.
Proof.
  intros I [[-> _]|[-> _]]; [|exact I]. destruct f1_float as [V F1]. split; [apply (finite_weaken _ _ _ F1); lra|]. rewrite V. lra.
Qed.

(** over any kind of numbers: the second path of a transparent body *)
Lemma second_path {N : Num} {T : Trig N} (c : @Spectrum N) (ri : @F N) (n p : @Vec N) (r : @Ray N) q1 q2 : get_possible_paths (Dielectric c ri) n p r = Ret (q1, q2) ->
  let '(n1, c1, n2, c2) := cos_and_n (direction (r_geometry r)) (r_refraction_index r) n ri in
  match c2, q2 with
  | Some c2, Some (r2, _) => direction (r_geometry r2) = fresnel_transmission_dir (direction (r_geometry r)) n n1 c1 n2 c2 /\ r_refraction_index r2 = n2
  | None, None => True
  | _, _ => False
  end.
Proof.
  intros H. cbn [get_possible_paths] in H. unfold dielectric_paths in H. destruct (cos_and_n _ _ _ _) as [[[n1 c1] n2] c2]. destruct (dielectric_refl_trans _ _ _ _ _) as [a b].
  destruct c2 as [c2|]; injection H as _ <-; [split; reflexivity|exact I].
Qed.

(** A transparent body refracts by Snell's law up to a few roundings: the component along the surface is n1/n2 times the incoming one, the
    component across is the cosine of Snell's law (compared by squares, because the cosine itself is ill-conditioned near total
    reflection); total reflection is reported exactly when Snell's law has no solution, up to a few roundings.  The length is not
    corrected: an incoming error is multiplied by (n1/n2)^2. *)
Theorem C100_refraction : forall (T : Trig NumSF) (col : @Spectrum NumSF) (ri : @F NumSF) (n p : VecF) (r : @Ray NumSF) q1 q2,
  index64 ri -> index64 (r_refraction_index r) -> nearly_unit (/ 2 ^ 20) (direction (r_geometry r)) -> unit_vec64 n ->
  dot (val_vec (direction (r_geometry r))) (val_vec n) <= 0 -> get_possible_paths (Dielectric col ri) n p r = Ret (q1, q2) ->
  exists n2, behind64 (r_refraction_index r) ri n2 /\
  let ratio := val (r_refraction_index r) / val n2 in
  let d := val_vec (direction (r_geometry r)) in let m := val_vec n in
  let sine2 := ratio * ratio * Rmax 0 (1 - dot d m * dot d m) in             (* the squared sine behind the surface, by Snell's law *)
  match q2 with
  | None => 1 - / 2 ^ 43 <= sine2
  | Some (r2, _) =>
      let t := val_vec (direction (r_geometry r2)) in
      r_refraction_index r2 = n2 /\ within 2 (direction (r_geometry r2)) /\ sine2 <= 1 + / 2 ^ 43 /\
      Rabs (dot t t - 1) <= ratio * ratio * Rabs (dot d d - 1) + / 2 ^ 43 /\
      close (/ 2 ^ 45) (cross t m) (times ratio (cross d m)) /\
      exists cosine, 0 <= cosine /\ Rabs (cosine * cosine - (1 - sine2)) <= / 2 ^ 43 /\ Rabs (dot t m + cosine) <= / 2 ^ 45
  end.
Proof.
  intros T col ri n p r q1 q2 I2 I1 HD HN HS H. set (d := direction (r_geometry r)) in *. set (n1 := r_refraction_index r) in *.
  exists (if @fltb NumSF (fabs (@fsub NumSF n1 ri)) (flit 1 10000000) then f1 else ri). split; [apply behind_ok; assumption|].
  pose proof (second_path col ri n p r q1 q2 H) as K. fold d n1 in K. cbv zeta.
  destruct (sin2_near d n n1 ri HD HN HS I1 I2) as (FS & PS & ES). destruct u_tiny' as [U0 U1]. assert (P43 : / 2 ^ 43 = 1024 * u) by (rewrite ulp1_val; lra).
  assert (SQ : forall z, - z * - z = z * z) by (intros; ring). rewrite SQ in ES.
  unfold cos_and_n in K. set (n2 := if @fltb NumSF (fabs (@fsub NumSF n1 ri)) (flit 1 10000000) then f1 else ri) in *.
  set (s2 := @fdiv NumSF _ _) in *. set (sine2 := val n1 / val n2 * (val n1 / val n2) * Rmax 0 (1 - dot (val_vec d) (val_vec n) * dot (val_vec d) (val_vec n))) in *.
  destruct f1_float as [V1 F1]. assert (FB : finite_upto BIG (@f1 NumSF)) by (apply (finite_weaken _ _ _ F1); rewrite BIG_val; lra).
  rewrite (ltb_val _ _ _ FB FS), V1 in K. destruct (Rlt_bool_spec 1 (val s2)) as [G|G].
  - destruct q2 as [[r2 w]|]; [destruct K|].
    assert (S0 : 0 <= sine2).
    { unfold sine2. apply Rmult_le_pos; [|apply Rmax_l]. pose proof (Rle_0_sqr (val n1 / val n2)) as Q. exact Q. }
    clearbody sine2. apply Rabs_le_inv in ES. assert (X : val s2 * (1 - u) <= sine2 + 361 * u) by lra. assert (Y : 1 * (1 - u) <= val s2 * (1 - u)) by (apply Rmult_le_compat_r; lra). lra.
  - destruct q2 as [[r2 w]|]; [|destruct K]. destruct K as [K1 K2].
    destruct (cos2_near d n n1 ri HD HN HS I1 I2 G) as (FC & PC & EC). rewrite SQ in EC. fold n2 s2 sine2 in EC.
    split; [exact K2|]. rewrite K1. split; [exact (t_within d n n1 ri HD HN HS I1 I2 G)|]. split.
    { apply Rabs_le_inv in ES. assert (u * val s2 <= u * 1) by (apply Rmult_le_compat_l; lra). lra. }
    split; [exact (t_length d n n1 ri HD HN HS I1 I2 G)|]. split; [exact (t_tangent d n n1 ri HD HN HS I1 I2 G)|].
    exists (val (@fsqrt NumSF (@fsub NumSF f1 s2))). split; [exact PC|]. split; [lra|]. exact (t_normal d n n1 ri HD HN HS I1 I2 G).
Qed.
Print Assumptions C100_refraction.

(** ** C100 - any sequence of reflections and refractions *)
(** a reflection renormalises: the reflected direction is a unit vector up to rounding even if the incoming one had drifted *)
Section Wide.
  Variables (d n : VecF).
  Hypothesis HD : nearly_unit (/ 2 ^ 20) d.
  Hypothesis HN : unit_vec64 n.
  Let D := val_vec d.
  Let M := val_vec n.
  Let raw := @vsub NumSF d (vscale n (@fmul NumSF f2 (vdot d n))).
  Let RAW := minus D (times (2 * dot D M) M).
  Lemma wide_facts : nearv 1 0 (1001/1000) 0 d D /\ nearv 1 0 (1001/1000) 0 n M /\ Rabs (dot D M) <= 1001 / 1000.
  Proof.
    destruct HD as [W1 U1]. destruct HN as [W2 U2].
    split; [apply direction_near; [exact W1|lra]|]. split; [apply direction_near; [exact W2|lra]|].
    pose proof (unit_norm d (/ 2 ^ 20) ltac:(lra) U1) as N1. pose proof (unit_norm n (/ 2 ^ 50) ltac:(lra) U2) as N2. pose proof (dot_le_norms D M) as K.
    fold D in N1. fold M in N2. apply (Rle_trans _ _ _ K). apply Rle_trans with ((1 + / 2 ^ 20) * (1 + / 2 ^ 50)); [apply Rmult_le_compat; lra|lra].
  Qed.
  Lemma wide_near : nearv 1 0 4 24 raw RAW.
  Proof.
    destruct wide_facts as (ND & NN & K).
    assert (C1 : near 1 0 (1001/1000) (81/10) (@vdot NumSF d n) (dot D M)).
    { destruct (near_dot 1 ltac:(lra) ltac:(lra) 0 0 (1001/1000) 0 (1001/1000) 0 (1003/1000) (1005/1000) (2006/1000) (402/100) (31/10) (81/10) d n D M ND NN) as (A & _ & B); try lra; [lia|].
      split; [exact A|]. split; [cbn [pow]; lra|exact B]. }
    destruct two_exact as [V2 F2].
    assert (T : near 1 0 2 0 (@f2 NumSF) 2).
    { pose proof (near_exact 1 0 2 (@f2 NumSF)) as Q. rewrite V2 in Q. apply Q; [|cbn [pow]; rewrite Rabs_pos_eq; lra]. apply (finite_weaken _ _ _ F2). rewrite BIG_val. lra. }
    pose proof (near_mul 1 ltac:(lra) ltac:(lra) 0 0 2 0 (1001/1000) (81/10) (2003/1000) (1821/100) _ _ _ _ T C1 ltac:(lia) ltac:(lra) ltac:(lra) ltac:(lra) ltac:(lra) ltac:(lra) ltac:(lra) ltac:(lra)) as T2.
    pose proof (nearv_scale _ _ _ _ (2006/1000) (2025/100) _ _ _ _ NN T2 ltac:(lra) ltac:(lra) ltac:(lra) ltac:(lra) ltac:(lra) ltac:(lra) ltac:(lra)) as S.
    apply (nearv_sub 1 ltac:(lra) ltac:(lra) 0 (1001/1000) 0 (2006/1000) (2025/100)); first [assumption|lia|lra].
  Qed.
  Lemma wide_norm : 99 / 100 <= norm RAW.
  Proof.
    destruct wide_facts as (_ & _ & K). destruct HD as [_ U1]. destruct HN as [_ U2]. fold D in U1. fold M in U2.
    destruct (norm_square RAW) as [N0 N1]. change (norm RAW * norm RAW = dot RAW RAW) in N1. unfold RAW in N1 at 3 4. rewrite raw_square_value in N1.
    assert (Q : 0 <= dot D M * dot D M <= 1003 / 1000). { pose proof (square_le _ _ K). split; [nra|lra]. }
    set (c := dot D M * dot D M) in *. set (p := dot D D) in *. set (q := dot M M) in *. set (z := norm RAW) in *. clearbody c p q z. apply Rabs_le_inv in U1. apply Rabs_le_inv in U2. nra.
  Qed.
  Lemma wide_unit : unit_vec64 (mirror_direction d n).
  Proof.
    assert (SZ : sizeable raw).
    { destruct wide_near as ((FX & BX & X) & (FY & BY & Y) & (FZ & BZ & Z)). cbn [pow] in X, Y, Z. rewrite Rmult_1_r in X, Y, Z.
      assert (W : forall (x : spec_float) (r : R), finite_upto BIG x -> finite_upto (bpow radix2 400) x) by (intros x0 r0 H; apply (finite_weaken _ _ _ H); apply bpow_le; lia).
      split; [exact (W _ 0 FX)|]. split; [exact (W _ 0 FY)|]. split; [exact (W _ 0 FZ)|].
      assert (SM : bpow radix2 (-400) <= / 4) by (apply Rle_trans with (bpow radix2 (-2)); [apply bpow_le; lia|cbn; lra]).
      pose proof wide_norm as N. assert (U : 24 * ulp1 <= 1 / 1000000) by (rewrite ulp1_val; lra).
      destruct (Rle_or_lt (/ 4) (Rabs (val (vx raw)))) as [|GX]; [left; lra|]. destruct (Rle_or_lt (/ 4) (Rabs (val (vy raw)))) as [|GY]; [right; left; lra|].
      destruct (Rle_or_lt (/ 4) (Rabs (val (vz raw)))) as [|GZ]; [right; right; lra|]. exfalso.
      assert (T : forall a b : R, Rabs (a - b) <= 24 * ulp1 -> Rabs a < / 4 -> Rabs b <= 26 / 100).
      { intros a b H1 H2. replace b with (a + - (a - b)) by ring. apply (Rle_trans _ _ _ (Rabs_triang _ _)). rewrite Rabs_Ropp. lra. }
      pose proof (norm_small RAW (26 / 100) ltac:(lra) (T _ _ X GX) (T _ _ Y GY) (T _ _ Z GZ)). lra. }
    destruct (C97_unit raw SZ) as (F1 & _ & U1). exact (conj F1 U1).
  Qed.
End Wide.

(** one specular event: the ray [r] arrives (moved along its line: [r0]) at a surface whose normal faces it and leaves by one of the
    paths that the material offers, as [r1] *)
Definition specular_event {T : Trig NumSF} (r r1 : @Ray NumSF) : Prop := exists m n p r0 q1 q2 w,
  direction (r_geometry r0) = direction (r_geometry r) /\ r_refraction_index r0 = r_refraction_index r /\
  specular_only m = true /\ (forall c ri, m = Dielectric c ri -> index64 ri) /\ unit_vec64 n /\
  dot (val_vec (direction (r_geometry r))) (val_vec n) <= 0 /\
  get_possible_paths m n p r0 = Ret (q1, q2) /\ (q1 = Some (r1, w) \/ q2 = Some (r1, w)).
Inductive specular_route {T : Trig NumSF} : nat -> @Ray NumSF -> @Ray NumSF -> Prop :=
| route_none r : specular_route 0 r r
| route_event k r r1 r' : specular_event r r1 -> specular_route k r1 r' -> specular_route (S k) r r'.

Lemma first_path_index {N : Num} {T : Trig N} (m : @Material N) (n p : @Vec N) (r : @Ray N) q1 q2 r1 w : specular_only m = true -> get_possible_paths m n p r = Ret (q1, q2) ->
  q1 = Some (r1, w) -> r_refraction_index r1 = r_refraction_index r.
Proof.
  intros HM H E. destruct m as [c s o|c s o|c|c|c k|c k]; try discriminate HM; cbn [get_possible_paths] in H.
  - unfold mirror_paths, mirror_bsdf in H. injection H as <- _. injection E as <- _. reflexivity.
  - unfold dielectric_paths in H. destruct (cos_and_n _ _ _ _) as [[[n1 c1] n2] c2]. destruct (dielectric_refl_trans _ _ _ _ _) as [a b].
    injection H as <- _. injection E as <- _. reflexivity.
  - unfold glass_paths in H. repeat match type of H with context [let '(_, _) := ?x in _] => destruct x end.
    injection H as <- _. injection E as <- _. reflexivity.
Qed.
Lemma straight_path {N : Num} {T : Trig N} (m : @Material N) (n p : @Vec N) (r : @Ray N) q1 r1 w : specular_only m = true -> (forall c ri, m <> Dielectric c ri) ->
  get_possible_paths m n p r = Ret (q1, Some (r1, w)) -> direction (r_geometry r1) = direction (r_geometry r) /\ r_refraction_index r1 = r_refraction_index r.
Proof.
  intros HM ND H. destruct m as [c s o|c s o|c|c|c k|c k]; try discriminate HM; cbn [get_possible_paths] in H.
  - unfold mirror_paths, mirror_bsdf in H. discriminate H.
  - destruct (ND c k eq_refl).
  - unfold glass_paths in H. repeat match type of H with context [let '(_, _) := ?x in _] => destruct x end.
    destruct (fltb _ _); [|discriminate H]. injection H as _ <- _. split; reflexivity.
Qed.
(** n^2 times the error of the squared length: what a refraction preserves *)
Definition drift (r : @Ray NumSF) : R := val (r_refraction_index r) * val (r_refraction_index r) * Rabs (dot (val_vec (direction (r_geometry r))) (val_vec (direction (r_geometry r))) - 1).
Lemma index_range x : index64 x -> 1 <= val x <= 4.
Proof. intros [(_ & _ & A) B]. apply Rabs_le_inv in A. lra. Qed.
Lemma weigh (i z : R) : 1 <= i <= 4 -> 0 <= z -> z <= i * i * z /\ i * i * z <= 16 * z.
Proof.
  intros H Z. assert (1 <= i * i <= 16) by nra. split; [rewrite <- (Rmult_1_l z) at 1|]; apply Rmult_le_compat_r; lra.
Qed.
Lemma event_drift (T : Trig NumSF) (r r1 : @Ray NumSF) E : index64 (r_refraction_index r) -> within 2 (direction (r_geometry r)) -> drift r <= E -> E <= / 2 ^ 20 -> specular_event r r1 ->
  index64 (r_refraction_index r1) /\ within 2 (direction (r_geometry r1)) /\ drift r1 <= E + / 2 ^ 39.
Proof.
  intros I1 W1 DE EB (m & n & p & r0 & q1 & q2 & w & E1 & E2 & SM & DI & UN & FC & HP & HQ).
  pose proof (index_range _ I1) as IR.
  assert (DU : Rabs (dot (val_vec (direction (r_geometry r))) (val_vec (direction (r_geometry r))) - 1) <= E).
  { apply Rle_trans with (drift r); [|exact DE]. apply (weigh _ _ IR). apply Rabs_pos. }
  assert (ND : nearly_unit (/ 2 ^ 20) (direction (r_geometry r))) by (split; [exact W1|lra]).
  assert (E0 : 0 <= E). { apply Rle_trans with (2 := DU). apply Rabs_pos. }
  destruct HQ as [HQ|HQ].
  - destruct (first_path m n p r0 q1 q2 SM HP) as (r1' & w' & Q1 & Q2). assert (r1' = r1) by congruence. subst r1'.
    pose proof (first_path_index m n p r0 q1 q2 r1 w SM HP HQ) as Q3. rewrite E1 in Q2. rewrite E2 in Q3. rewrite Q3. destruct (wide_unit _ _ ND UN) as [V1 V2]. rewrite <- Q2 in V1, V2.
    split; [exact I1|]. split; [exact V1|]. unfold drift. rewrite Q3. destruct (weigh _ _ IR (Rabs_pos (dot (val_vec (direction (r_geometry r1))) (val_vec (direction (r_geometry r1))) - 1))) as [_ Z]. lra.
  - destruct (Bool.bool_dec (match m with Dielectric _ _ => true | _ => false end) true) as [DM|DM].
    + destruct m as [c s o|c s o|c|c|c k|c k]; try discriminate DM. clear DM. pose proof (DI c k eq_refl) as I2. subst q2.
      assert (I1' : index64 (r_refraction_index r0)) by (rewrite E2; exact I1). assert (ND' : nearly_unit (/ 2 ^ 20) (direction (r_geometry r0))) by (rewrite E1; exact ND).
      rewrite <- E1 in FC. destruct (C100_refraction T c k n p r0 q1 _ I2 I1' ND' UN FC HP) as (n2 & BH & K). cbv zeta in K. destruct K as (K1 & K2 & _ & K3 & _).
      pose proof (behind_index _ _ _ I2 BH) as I3. rewrite K1. split; [exact I3|]. split; [exact K2|]. unfold drift in *. rewrite K1. rewrite E1, E2 in K3.
      pose proof (index_range _ I3) as IR3. set (a := val (r_refraction_index r)) in *. set (b := val n2) in *. set (z := Rabs (dot (val_vec (direction (r_geometry r))) _ - 1)) in *.
      set (y := Rabs _) in *. clearbody a b z y.
      apply Rle_trans with (b * b * (a / b * (a / b) * z + / 2 ^ 43)); [apply Rmult_le_compat_l; [nra|exact K3]|].
      replace (b * b * (a / b * (a / b) * z + / 2 ^ 43)) with (a * a * z + b * b * / 2 ^ 43) by (field; lra). assert (b * b <= 16) by nra. lra.
    + subst q2. destruct (straight_path m n p r0 q1 r1 w SM) as [Q1 Q2]; [intros c k Hm; apply DM; rewrite Hm; reflexivity|exact HP|].
      rewrite E1 in Q1. rewrite E2 in Q2. unfold drift in *. rewrite Q1, Q2. split; [exact I1|]. split; [exact W1|]. lra.
Qed.
(** The length of the direction drifts by at most 2^-39 per event, whatever the sequence of media *)
Theorem C100_route : forall (T : Trig NumSF) k (r r' : @Ray NumSF), unit_vec64 (direction (r_geometry r)) -> index64 (r_refraction_index r) -> (Z.of_nat k <= 2 ^ 18)%Z ->
  specular_route k r r' -> index64 (r_refraction_index r') /\ nearly_unit (/ 2 ^ 46 + INR k / 2 ^ 39) (direction (r_geometry r')).
Proof.
  intros T k r r' [W U] I1 KB H.
  assert (G : forall k r r', specular_route k r r' -> forall E, index64 (r_refraction_index r) -> within 2 (direction (r_geometry r)) -> drift r <= E -> E + INR k / 2 ^ 39 <= / 2 ^ 20 ->
    index64 (r_refraction_index r') /\ within 2 (direction (r_geometry r')) /\ drift r' <= E + INR k / 2 ^ 39).
  { clear. intros k r r' H. induction H as [r|k r r1 r' HE HR IH]; intros E I1 W DE EB.
    - split; [exact I1|]. split; [exact W|]. cbn [INR]. lra.
    - rewrite S_INR in *. pose proof (pos_INR k) as K0. unfold Rdiv in *. rewrite Rmult_plus_distr_r, Rmult_1_l in *.
      assert (P : 0 <= INR k * / 2 ^ 39) by (apply Rmult_le_pos; lra).
      destruct (event_drift T r r1 E I1 W DE ltac:(lra) HE) as (I2 & W2 & D2). destruct (IH (E + / 2 ^ 39) I2 W2 D2 ltac:(lra)) as (I3 & W3 & D3). split; [exact I3|]. split; [exact W3|]. lra. }
  assert (KR : INR k <= 2 ^ 18). { rewrite INR_IZR_INZ, (pow_IZR 2 18). apply IZR_le. exact KB. }
  assert (DE : drift r <= / 2 ^ 46).
  { pose proof (index_range _ I1) as IR. unfold drift. destruct (weigh _ _ IR (Rabs_pos (dot (val_vec (direction (r_geometry r))) (val_vec (direction (r_geometry r))) - 1))) as [_ Z]. lra. }
  destruct (G k r r' H (/ 2 ^ 46) I1 W DE ltac:(lra)) as (I3 & W3 & D3). split; [exact I3|]. split; [exact W3|].
  apply Rle_trans with (2 := D3). pose proof (index_range _ I3) as IR. apply (weigh _ _ IR). apply Rabs_pos.
Qed.
Print Assumptions C100_route.

(** A concrete case: a slanted ray in air enters a body of index 3/2 and is refracted *)
Definition three_halves : @F NumSF := @flit NumSF 3 2.
Lemma three_halves_index : index64 three_halves /\ index64 (@f1 NumSF) /\ val three_halves = 3 / 2.
Proof.
  destruct (small_int 3 4 ltac:(lia)) as [V3' F3]; [rewrite Rabs_pos_eq; lra|]. destruct (small_int 2 4 ltac:(lia)) as [V2 F2]; [rewrite Rabs_pos_eq; lra|].
  destruct (div_val 80 ltac:(lia) _ _ _ _ F3 F2) as [V FI]; [rewrite V2; lra|rewrite V3', V2; unfold Rdiv; rewrite Rabs_pos_eq by lra; apply Rle_trans with 2; [lra|cbn; lra]|].
  assert (E : (three_halves : spec_float) = @fdiv NumSF (sf_ofZ 3) (sf_ofZ 2)) by (vm_compute; reflexivity). rewrite <- E in V, FI.
  assert (VV : val three_halves = 3 / 2).
  { rewrite V, V3', V2. apply Generic_fmt.round_generic; [apply valid_rnd_N|]. apply generic_format_FLT. apply (FLT_spec radix2 (-1074) 53 _ (Float radix2 3 (-1))); [unfold F2R; cbn; lra|cbn; lia|cbn; lia]. }
  split; [|split; [|exact VV]].
  - split; [|rewrite VV; lra]. destruct FI as (A & B & _). split; [exact A|]. split; [exact B|]. rewrite VV, Rabs_pos_eq; lra.
  - destruct f1_float as [V1 F1]. split; [apply (finite_weaken _ _ _ F1); lra|]. rewrite V1. lra.
Qed.
Lemma slanted_down : dot (val_vec (direction slanted)) (val_vec up_normal) <= 0.
Proof.
  destruct thirds as ((V1 & _) & (V2 & _) & (V3' & _)). destruct (small_int 0 2 ltac:(lia)) as [V0 _]; [rewrite Rabs_pos_eq; lra|]. destruct (small_int 1 2 ltac:(lia)) as [W1 _]; [rewrite Rabs_pos_eq; lra|].
  unfold slanted, up_normal, val_vec, dot, pt. cbn [direction vx vy vz]. rewrite V1, V2, V3', V0, W1. lra.
Qed.
Definition enters : bool := match snd (@cos_and_n NumSF (direction slanted) f1 up_normal three_halves) with Some _ => true | None => false end.
Lemma enters_true : enters = true.
Proof. vm_compute. reflexivity. Qed.
Example C100_hyp (T : Trig NumSF) : exists (r r' : @Ray NumSF), unit_vec64 (direction (r_geometry r)) /\ index64 (r_refraction_index r) /\ specular_route 1 r r' /\
  val (r_refraction_index r) = 1 /\ r_refraction_index r' = three_halves.
Proof.
  pose (r := @set_geometry NumSF (@ray_default NumSF) slanted). pose (c := @gray NumSF (@flit NumSF 9 10)).
  destruct (dielectric_paths c three_halves up_normal (origin slanted) r) as [q1 q2] eqn:EP.
  assert (HP : get_possible_paths (Dielectric c three_halves) up_normal (origin slanted) r = Ret (q1, q2)) by (cbn [get_possible_paths]; rewrite EP; reflexivity).
  pose proof (second_path c three_halves up_normal (origin slanted) r q1 q2 HP) as K. pose proof enters_true as ET. unfold enters in ET.
  change (direction (r_geometry r)) with (direction slanted) in K. change (r_refraction_index r) with (@f1 NumSF) in K.
  destruct three_halves_index as (I3 & I1 & V3').
  assert (NB : behind64 f1 three_halves (if @fltb NumSF (fabs (@fsub NumSF f1 three_halves)) (flit 1 10000000) then f1 else three_halves)) by (apply behind_ok; assumption).
  assert (N2 : (if @fltb NumSF (fabs (@fsub NumSF f1 three_halves)) (flit 1 10000000) then f1 else three_halves) = three_halves).
  { destruct NB as [[_ B]|[B _]]; [|exact B]. exfalso. destruct f1_float as [V1 _]. rewrite V1, V3' in B. rewrite Rabs_left in B; lra. }
  unfold cos_and_n in K, ET. rewrite N2 in K, ET. clear NB N2.
  destruct (fltb f1 _) in K, ET; [discriminate ET|]. destruct q2 as [[r2 w]|]; [|destruct K]. destruct K as [_ K2].
  exists r, r2. split; [exact slanted_unit|]. split; [exact I1|]. split; [|split; [apply f1_float|exact K2]].
  apply route_event with r2; [|constructor].
  exists (Dielectric c three_halves), up_normal, (origin slanted), r, q1, (Some (r2, w)), w. split; [reflexivity|]. split; [reflexivity|]. split; [reflexivity|].
  split; [intros c' ri E; injection E as _ <-; exact I3|]. split; [exact up_normal_unit|]. split; [exact slanted_down|]. split; [exact HP|]. right. reflexivity.
Qed.
