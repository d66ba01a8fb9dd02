(** * Property C99: directions in the program's own arithmetic (binary64, every operation rounded): mirror reflections *)
From Coq Require Import ZArith SpecFloat Reals Lra Lia Psatz List.
From Flocq Require Import Core BinarySingleNaN Relative.
From Verif Require Import Num NumR NumSF SFBridge FloatOps FloatRound FloatError Geometry Triangle SpecGeom TriangleProofs P_Exact
  Colour Ray Samplers Material P_FloatHit P_FloatUnit P_FloatQuery.
Import ListNotations.
#[local] Existing Instance Hprec.
#[local] Existing Instance Hmax.
#[local] Existing Instance valid64.
Open Scope R_scope.

(** ** the vocabulary of the statements *)
(** a finite vector whose length is one up to rounding *)
Definition unit_vec64 (v : VecF) : Prop := within 2 v /\ Rabs (dot (val_vec v) (val_vec v) - 1) <= / 2 ^ 50.
(** the exact image of d in the plane perpendicular to n *)
Definition mirror_image (d n : VecR) : VecR := minus d (times (2 * dot d n / dot n n) n).

Lemma mirror_image_isometry (a b n : VecR) : dot n n <> 0 -> norm (minus (mirror_image a n) (mirror_image b n)) = norm (minus a b).
Proof.
  intros H. unfold norm. f_equal. unfold mirror_image. revert H. clear. dvec. vunf. intros H. field. exact H.
Qed.
Lemma mirror_image_dot (d n : VecR) : dot n n <> 0 -> dot (mirror_image d n) n = - dot d n.
Proof. intros H. unfold mirror_image. revert H. clear. dvec. vunf. intros H. field. exact H. Qed.
Lemma cauchy_reals (x y z u v w p q : R) : 0 <= p -> 0 <= q -> p * p = x * x + y * y + z * z -> q * q = u * u + v * v + w * w ->
  Rabs (x * u + y * v + z * w) <= p * q.
Proof.
  intros A0 B0 A1 B1. apply Rsqr_incr_0_var; [|nra]. rewrite <- Rsqr_abs. unfold Rsqr. replace (p * q * (p * q)) with ((p * p) * (q * q)) by ring. rewrite A1, B1.
  pose proof (Rle_0_sqr (x * v - y * u)) as H1. pose proof (Rle_0_sqr (x * w - z * u)) as H2. pose proof (Rle_0_sqr (y * w - z * v)) as H3. unfold Rsqr in *. nra.
Qed.
Lemma dot_le_norms (a b : VecR) : Rabs (dot a b) <= norm a * norm b.
Proof. destruct (norm_square a) as [A0 A1]. destruct (norm_square b) as [B0 B1]. exact (cauchy_reals _ _ _ _ _ _ _ _ A0 B0 A1 B1). Qed.
Lemma two_exact : val (@f2 NumSF) = 2 /\ finite_upto 2 (@f2 NumSF).
Proof.
  destruct (small_int 2 2 ltac:(lia)) as [V FO]; [rewrite Rabs_pos_eq; lra|]. assert (E : (@f2 NumSF : spec_float) = sf_ofZ 2) by (vm_compute; reflexivity). rewrite E.
  exact (conj V FO).
Qed.
Lemma unit_norm (v : VecF) m : 0 <= m <= 1 -> Rabs (dot (val_vec v) (val_vec v) - 1) <= m -> 1 - m <= norm (val_vec v) <= 1 + m.
Proof. intros HM H. pose proof (norm_unit (val_vec v) m HM H) as K. apply Rabs_le_inv in K. lra. Qed.

Lemma raw_square_value (a b : VecR) : dot (minus a (times (2 * dot a b) b)) (minus a (times (2 * dot a b) b)) = dot a a + 4 * (dot a b * dot a b) * (dot b b - 1).
Proof. dvec. vunf. ring. Qed.
Lemma dot_minus (a b c : VecR) : dot (minus a b) c = dot a c - dot b c.
Proof. dvec. vunf. ring. Qed.
(** ** one reflection *)
Section Mirror.
  Variables (d n : VecF).
  Hypothesis HD : unit_vec64 d.
  Hypothesis HN : unit_vec64 n.
  Let D := val_vec d.
  Let M := val_vec n.
  Let I := mirror_image D M.
  Let raw := @vsub NumSF d (vscale n (@fmul NumSF f2 (vdot d n))).
  Let RAW := minus D (times (2 * dot D M) M).

  Lemma facts : nearv 1 0 (1001/1000) 0 d D /\ nearv 1 0 (1001/1000) 0 n M /\ Rabs (dot D M) <= 1001 / 1000.
  Proof.
    destruct HD as [W1 U1]. destruct HN as [W2 U2].
    split; [apply direction_near; [exact W1|lra]|]. split; [apply direction_near; [exact W2|lra]|].
    pose proof (unit_norm d (/ 2 ^ 50) ltac:(lra) U1) as N1. pose proof (unit_norm n (/ 2 ^ 50) ltac:(lra) U2) as N2. pose proof (dot_le_norms D M) as C.
    fold D in N1. fold M in N2. apply (Rle_trans _ _ _ C). apply Rle_trans with ((1 + / 2 ^ 50) * (1 + / 2 ^ 50)); [apply Rmult_le_compat; lra|lra].
  Qed.
  Lemma raw_near : nearv 1 0 4 24 raw RAW.
  Proof.
    destruct facts as (ND & NN & C).
    assert (C1 : near 1 0 (1001/1000) (81/10) (@vdot NumSF d n) (dot D M)).
    { destruct (near_dot 1 ltac:(lra) ltac:(lra) 0 0 (1001/1000) 0 (1001/1000) 0 (1003/1000) (1005/1000) (2006/1000) (402/100) (31/10) (81/10) d n D M ND NN) as (A & _ & B); try lra; [lia|].
      split; [exact A|]. split; [cbn [pow]; lra|exact B]. }
    destruct two_exact as [V2 F2].
    assert (T : near 1 0 2 0 (@f2 NumSF) 2).
    { pose proof (near_exact 1 0 2 (@f2 NumSF)) as K. rewrite V2 in K. apply K; [|cbn [pow]; rewrite Rabs_pos_eq; lra].
      apply (finite_weaken _ _ _ F2). rewrite BIG_val. lra. }
    pose proof (near_mul 1 ltac:(lra) ltac:(lra) 0 0 2 0 (1001/1000) (81/10) (2003/1000) (1821/100) _ _ _ _ T C1 ltac:(lia) ltac:(lra) ltac:(lra) ltac:(lra) ltac:(lra) ltac:(lra) ltac:(lra) ltac:(lra)) as T2.
    assert (S : nearv 1 0 (2006/1000) (2025/100) (vscale n (@fmul NumSF f2 (vdot d n))) (times (2 * dot D M) M)).
    { destruct NN as (X & Y & Z). split; [|split]; unfold vscale, times; cbn [vx vy vz pt];
        [pose proof (near_mul 1 ltac:(lra) ltac:(lra) 0 0 _ _ _ _ (2006/1000) (2025/100) _ _ _ _ X T2) as K
        |pose proof (near_mul 1 ltac:(lra) ltac:(lra) 0 0 _ _ _ _ (2006/1000) (2025/100) _ _ _ _ Y T2) as K
        |pose proof (near_mul 1 ltac:(lra) ltac:(lra) 0 0 _ _ _ _ (2006/1000) (2025/100) _ _ _ _ Z T2) as K];
        rewrite (Rmult_comm _ (2 * dot D M)) in K; apply K; first [lia|lra]. }
    apply (nearv_sub 1 ltac:(lra) ltac:(lra) 0 (1001/1000) 0 (2006/1000) (2025/100)); first [assumption|lia|lra].
  Qed.
  Lemma raw_square : Rabs (dot RAW RAW - 1) <= 51 / 10 * / 2 ^ 50.
  Proof.
    destruct facts as (_ & _ & C). destruct HD as [_ U1]. destruct HN as [_ U2]. fold D in U1. fold M in U2.
    unfold RAW. rewrite raw_square_value.
    assert (Q : 0 <= dot D M * dot D M <= 1003 / 1000). { pose proof (square_le _ _ C). split; [nra|lra]. }
    set (c := dot D M * dot D M) in *. clearbody c. set (p := dot D D) in *. set (q := dot M M) in *. clearbody p q. apply Rabs_le_inv in U1. apply Rabs_le_inv in U2. apply Rabs_le. split; nra.
  Qed.
  Lemma raw_norm : Rabs (norm RAW - 1) <= 52 / 20 * / 2 ^ 50.
  Proof.
    pose proof raw_square as H. destruct (norm_square RAW) as [N0 N1]. change (norm RAW * norm RAW = dot RAW RAW) in N1. rewrite <- N1 in H.
    set (s := norm RAW) in *. clearbody s. apply Rabs_le_inv in H. apply Rabs_le. split; nra.
  Qed.
  Lemma raw_close : close (24 * ulp1) (val_vec raw) RAW.
  Proof.
    destruct raw_near as ((_ & _ & X) & (_ & _ & Y) & (_ & _ & Z)). cbn [pow] in X, Y, Z. rewrite Rmult_1_r in X, Y, Z. exact (conj X (conj Y Z)).
  Qed.
  Lemma raw_sizeable : sizeable raw.
  Proof.
    destruct raw_near as ((FX & BX & X) & (FY & BY & Y) & (FZ & BZ & Z)). cbn [pow] in X, Y, Z, BX, BY, BZ. rewrite Rmult_1_r in X, Y, Z, BX, BY, BZ.
    assert (W : forall (x : spec_float) (r : R), finite_upto BIG x -> finite_upto (bpow radix2 400) x) by (intros x r0 H; apply (finite_weaken _ _ _ H); apply bpow_le; lia).
    split; [exact (W _ 0 FX)|]. split; [exact (W _ 0 FY)|]. split; [exact (W _ 0 FZ)|].
    assert (S : bpow radix2 (-400) <= / 4) by (apply Rle_trans with (bpow radix2 (-2)); [apply bpow_le; lia|cbn; lra]).
    pose proof raw_norm as N. apply Rabs_le_inv in N. assert (U : 24 * ulp1 <= 1 / 1000000) by (rewrite ulp1_val; lra).
    destruct (Rle_or_lt (/ 4) (Rabs (val (vx raw)))) as [|GX]; [left; lra|]. destruct (Rle_or_lt (/ 4) (Rabs (val (vy raw)))) as [|GY]; [right; left; lra|].
    destruct (Rle_or_lt (/ 4) (Rabs (val (vz raw)))) as [|GZ]; [right; right; lra|]. exfalso.
    assert (T : forall a b : R, Rabs (a - b) <= 24 * ulp1 -> Rabs a < / 4 -> Rabs b <= 26 / 100).
    { intros a b H1 H2. replace b with (a + - (a - b)) by ring. apply (Rle_trans _ _ _ (Rabs_triang _ _)). rewrite Rabs_Ropp. lra. }
    pose proof (norm_small RAW (26 / 100) ltac:(lra) (T _ _ X GX) (T _ _ Y GY) (T _ _ Z GZ)). lra.
  Qed.
  Lemma mirror_unit : unit_vec64 (mirror_direction d n).
  Proof. destruct (C97_unit raw raw_sizeable) as (F1 & _ & U1). exact (conj F1 U1). Qed.
  Lemma mirror_close : close (/ 2 ^ 46) (val_vec (mirror_direction d n)) I.
  Proof.
    destruct (C97_unit raw raw_sizeable) as (_ & (A1 & A2 & A3) & _). change (vnormalized raw) with (mirror_direction d n) in *.
    pose proof raw_norm as N. apply Rabs_le_inv in N. pose proof ulp1_pos as U0. assert (UV : / 2 ^ 50 = 8 * ulp1) by (rewrite ulp1_val; lra).
    destruct (unit_close (val_vec raw) RAW (24 * ulp1) ltac:(lra) raw_close ltac:(lra) ltac:(rewrite ulp1_val; lra)) as [_ (B1 & B2 & B3)].
    assert (BB : 274 / 100 * (24 * ulp1 / norm RAW) <= 66 * ulp1).
    { unfold Rdiv. assert (/ norm RAW <= 1001 / 1000). { apply Rle_trans with (/ (1000 / 1001)); [apply Rinv_le_contravar; lra|lra]. } nra. }
    (* from the normalised exact vector to the vector itself *)
    assert (C : forall r : R, Rabs r <= norm RAW -> Rabs (/ norm RAW * r - r) <= 52 / 20 * / 2 ^ 50).
    { intros r Hr. replace (/ norm RAW * r - r) with (r * / norm RAW * (1 - norm RAW)) by (field; lra). rewrite Rabs_mult.
      apply Rle_trans with (1 * Rabs (1 - norm RAW)); [|rewrite Rmult_1_l; apply Rabs_le; lra]. apply Rmult_le_compat_r; [apply Rabs_pos|].
      rewrite Rabs_mult, Rabs_inv, (Rabs_pos_eq (norm RAW)) by lra. apply (Rmult_le_reg_r (norm RAW)); [lra|]. rewrite Rmult_assoc, Rinv_l by lra. lra. }
    destruct (coord_le RAW) as (C1 & C2 & C3). apply C in C1. apply C in C2. apply C in C3. clear C.
    (* and to the exact mirror image *)
    destruct facts as (_ & ((_ & M1 & _) & (_ & M2 & _) & (_ & M3 & _)) & DM). cbn [pow] in M1, M2, M3. rewrite Rmult_1_r in M1, M2, M3.
    assert (E : forall m : R, Rabs m <= 1001 / 1000 -> Rabs (2 * dot D M * m - 2 * dot D M / dot M M * m) <= 2007 / 1000 * / 2 ^ 50).
    { intros m Hm. destruct HN as [_ U2]. fold M in U2. apply Rabs_le_inv in U2. set (q := dot M M) in *.
      replace (2 * dot D M * m - 2 * dot D M / q * m) with (2 * (dot D M * m) * (1 - / q)) by (field; lra).
      assert (Q : Rabs (1 - / q) <= 1001 / 1000 * / 2 ^ 50).
      { replace (1 - / q) with ((q - 1) * / q) by (field; lra). rewrite Rabs_mult, (Rabs_pos_eq (/ q)) by (left; apply Rinv_0_lt_compat; lra). rewrite Rmult_comm.
        apply Rmult_le_compat; [left; apply Rinv_0_lt_compat; lra|apply Rabs_pos| |apply Rabs_le; lra].
        apply Rle_trans with (/ (1000 / 1001)); [apply Rinv_le_contravar; lra|lra]. }
      rewrite !Rabs_mult, (Rabs_pos_eq 2) by lra.
      assert (P : Rabs (dot D M) * Rabs m <= 1001 / 1000 * (1001 / 1000)) by (apply Rmult_le_compat; try apply Rabs_pos; assumption).
      apply Rle_trans with (2 * (1001 / 1000 * (1001 / 1000)) * (1001 / 1000 * / 2 ^ 50)); [|lra].
      apply Rmult_le_compat; [|apply Rabs_pos| |exact Q]; [|lra]. apply Rmult_le_pos; [lra|]. apply Rmult_le_pos; apply Rabs_pos. }
    pose proof (E _ M1) as E1. pose proof (E _ M2) as E2. pose proof (E _ M3) as E3. clear E.
    assert (T : forall a b c x k l : R, Rabs (a - b) <= / 2 ^ 51 -> Rabs (b - c) <= 274 / 100 * (24 * ulp1 / norm RAW) -> Rabs (c - (x - k)) <= 52 / 20 * / 2 ^ 50 -> Rabs (k - l) <= 2007 / 1000 * / 2 ^ 50 ->
      Rabs (a - (x - l)) <= / 2 ^ 46).
    { intros a b c x k l H1 H2 H3 H4. apply Rabs_le_inv in H1. apply Rabs_le_inv in H2. apply Rabs_le_inv in H3. apply Rabs_le_inv in H4.
      assert (/ 2 ^ 51 = 4 * ulp1) by (rewrite ulp1_val; lra). assert (/ 2 ^ 46 = 128 * ulp1) by (rewrite ulp1_val; lra). apply Rabs_le. lra. }
    exact (conj (T _ _ _ _ _ _ A1 B1 C1 E1) (conj (T _ _ _ _ _ _ A2 B2 C2 E2) (T _ _ _ _ _ _ A3 B3 C3 E3))).
  Qed.
  Lemma mirror_distance : norm (minus (val_vec (mirror_direction d n)) I) <= / 2 ^ 45.
  Proof.
    destruct mirror_close as (X & Y & Z). pose proof (norm_small (minus (val_vec (mirror_direction d n)) I) (/ 2 ^ 46) ltac:(lra) X Y Z). lra.
  Qed.
  Lemma mirror_side : Rabs (dot (val_vec (mirror_direction d n)) M + dot D M) <= / 2 ^ 44.
  Proof.
    destruct HN as [_ U2]. fold M in U2. pose proof (unit_norm n (/ 2 ^ 50) ltac:(lra) U2) as N2. fold M in N2.
    assert (E : dot (val_vec (mirror_direction d n)) M + dot D M = dot (minus (val_vec (mirror_direction d n)) I) M).
    { pose proof (mirror_image_dot D M) as K. apply Rabs_le_inv in U2. specialize (K ltac:(lra)). fold I in K.
      rewrite dot_minus. lra. }
    rewrite E. apply (Rle_trans _ _ _ (dot_le_norms _ _)). pose proof mirror_distance as MD.
    apply Rle_trans with (/ 2 ^ 45 * (1 + / 2 ^ 50)); [|lra]. apply Rmult_le_compat; try lra; apply norm_square.
  Qed.
End Mirror.

(** over any kind of numbers: a specular material's first path leaves in the direction of [mirror_direction] *)
Lemma first_path {N : Num} {T : Trig N} (m : @Material N) (n p : @Vec N) (r : @Ray N) q1 q2 : specular_only m = true -> get_possible_paths m n p r = Ret (q1, q2) ->
  exists r1 w, q1 = Some (r1, w) /\ direction (r_geometry r1) = mirror_direction (direction (r_geometry r)) n.
Proof.
  intros HM H. destruct m as [c s o|c s o|c|c|c k|c k]; try discriminate HM; cbn [get_possible_paths] in H.
  - unfold mirror_paths, mirror_bsdf in H. injection H as <- _. eexists _, _. split; reflexivity.
  - unfold dielectric_paths in H. destruct (cos_and_n _ _ _ _) as [[[n1 c1] n2] c2]. destruct (dielectric_refl_trans _ _ _ _ _) as [a b].
    injection H as <- _. eexists _, _. split; reflexivity.
  - unfold glass_paths in H.
    repeat match type of H with context [let '(_, _) := ?x in _] => destruct x end.
    injection H as <- _. eexists _, _. split; reflexivity.
Qed.
(** ** C99 - a specular surface reflects into the exact mirror direction, up to a few roundings: the new direction is a unit vector again,
    and it is on the side from which the ray came unless the ray grazes the surface *)
Theorem C99_mirror : forall (T : Trig NumSF) (m : @Material NumSF) (n p : VecF) (r : @Ray NumSF) q1 q2,
  specular_only m = true -> unit_vec64 (direction (r_geometry r)) -> unit_vec64 n -> get_possible_paths m n p r = Ret (q1, q2) ->
  exists r1 w, q1 = Some (r1, w) /\
  let d := val_vec (direction (r_geometry r)) in let d1 := val_vec (direction (r_geometry r1)) in
  unit_vec64 (direction (r_geometry r1)) /\ close (/ 2 ^ 46) d1 (mirror_image d (val_vec n)) /\
  Rabs (dot d1 (val_vec n) + dot d (val_vec n)) <= / 2 ^ 44.
Proof.
  intros T m n p r q1 q2 HM HD HN H.
  pose proof (first_path m n p r q1 q2 HM H) as K.
  destruct K as (r1 & w & -> & E). exists r1, w. split; [reflexivity|]. cbv zeta. rewrite E.
  exact (conj (mirror_unit _ _ HD HN) (conj (mirror_close _ _ HD HN) (mirror_side _ _ HD HN))).
Qed.
Print Assumptions C99_mirror.

(** any number of reflections: the errors add up, they are not amplified.  A surface is a material, the normal at the point hit
    and that point; [r0] is the ray that arrives there (only its direction matters) *)
Fixpoint bounces {T : Trig NumSF} (surfaces : list (@Material NumSF * VecF * VecF)) (r r' : @Ray NumSF) : Prop :=
  match surfaces with
  | [] => direction (r_geometry r') = direction (r_geometry r)
  | (m, n, p) :: rest => exists r0 r1 w q, direction (r_geometry r0) = direction (r_geometry r) /\
      get_possible_paths m n p r0 = Ret (Some (r1, w), q) /\ bounces rest r1 r'
  end.
Definition exact_bounces (surfaces : list (@Material NumSF * VecF * VecF)) (d : VecR) : VecR :=
  fold_left (fun d s => mirror_image d (val_vec (snd (fst s)))) surfaces d.
Lemma exact_bounces_apart surfaces : forall a b, (forall s, In s surfaces -> unit_vec64 (snd (fst s))) ->
  norm (minus (exact_bounces surfaces a) (exact_bounces surfaces b)) = norm (minus a b).
Proof.
  induction surfaces as [|s l IH]; intros a b H; [reflexivity|]. change (norm (minus (exact_bounces l (mirror_image a (val_vec (snd (fst s))))) (exact_bounces l (mirror_image b (val_vec (snd (fst s)))))) = norm (minus a b)).
  rewrite IH by (intros x Hx; apply H; right; exact Hx). apply mirror_image_isometry. destruct (H s (or_introl eq_refl)) as [_ U]. apply Rabs_le_inv in U.
  set (k := dot _ _) in *. clearbody k. lra.
Qed.
Theorem C99_bounces : forall (T : Trig NumSF) surfaces (r r' : @Ray NumSF),
  (forall m n p, In (m, n, p) surfaces -> specular_only m = true /\ unit_vec64 n) -> unit_vec64 (direction (r_geometry r)) -> bounces surfaces r r' ->
  unit_vec64 (direction (r_geometry r')) /\
  norm (minus (val_vec (direction (r_geometry r'))) (exact_bounces surfaces (val_vec (direction (r_geometry r))))) <= INR (length surfaces) / 2 ^ 45.
Proof.
  intros T. induction surfaces as [|[[m n] p] l IH]; intros r r' HS HD HB.
  - cbn [bounces] in HB. rewrite HB. split; [exact HD|]. cbn [exact_bounces fold_left length INR]. unfold Rdiv. rewrite Rmult_0_l.
    set (d := val_vec _). right. unfold norm. replace (dot (minus d d) (minus d d)) with 0 by (clearbody d; clear; dvec; vunf; ring). apply sqrt_0.
  - destruct HB as (r0 & r1 & w & q & E & HP & HB). destruct (HS m n p (or_introl eq_refl)) as [SM UN]. rewrite <- E in HD.
    destruct (C99_mirror T m n p r0 _ _ SM HD UN HP) as (r1' & w' & E1 & U1 & _). assert (X : r1' = r1) by congruence. subst r1'.
    destruct (IH r1 r' (fun m n p H => HS m n p (or_intror H)) U1 HB) as [U2 K]. split; [exact U2|].
    assert (M1 : norm (minus (val_vec (direction (r_geometry r1))) (mirror_image (val_vec (direction (r_geometry r0))) (val_vec n))) <= / 2 ^ 45).
    { destruct (C99_mirror T m n p r0 _ _ SM HD UN HP) as (r1' & w2 & E2 & _ & C2 & _). assert (X : r1' = r1) by congruence. subst r1'.
      destruct C2 as (X & Y & Z). match goal with |- norm ?q <= _ => set (a := q) end. pose proof (norm_small a (/ 2 ^ 46) ltac:(lra) X Y Z). lra. }
    change (exact_bounces ((m, n, p) :: l) (val_vec (direction (r_geometry r)))) with (exact_bounces l (mirror_image (val_vec (direction (r_geometry r))) (val_vec n))).
    rewrite <- E. set (a := val_vec (direction (r_geometry r1))) in *. set (b := mirror_image _ _) in *.
    pose proof (exact_bounces_apart l a b) as A. rewrite <- A in M1.
    2:{ intros [[m' n'] p'] Hx. destruct (HS m' n' p' (or_intror Hx)) as [_ Q]. exact Q. }
    set (x := val_vec (direction (r_geometry r'))) in *. set (y := exact_bounces l a) in *. set (z := exact_bounces l b) in *. clearbody x y z.
    pose proof (norm_plus_le (minus x y) (minus y z)) as TR. replace (plus (minus x y) (minus y z)) with (minus x z) in TR by (clear; dvec; apply vec_ext; vunf; ring).
    cbn [length]. rewrite S_INR. unfold Rdiv in *. rewrite Rmult_plus_distr_r, Rmult_1_l. lra.
Qed.
Print Assumptions C99_bounces.

(** A concrete case: a slanted ray, a mirror that faces up and then one whose normal is slanted as well *)
Lemma slanted_unit : unit_vec64 (direction slanted).
Proof.
  destruct thirds as ((V1 & F1) & (V2 & F2) & (V3' & F3)). split; [exact (conj F1 (conj F2 F3))|].
  unfold slanted, val_vec, dot, pt. cbn [direction vx vy vz]. rewrite V1, V2, V3'. apply Rabs_le. split; lra.
Qed.
Definition up_normal : VecF := @V3 NumSF (sf_ofZ 0) (sf_ofZ 0) (sf_ofZ 1).
Lemma up_normal_unit : unit_vec64 up_normal.
Proof.
  assert (A0 : Rabs (IZR 0) <= 2) by (rewrite Rabs_pos_eq; lra). assert (A1 : Rabs (IZR 1) <= 2) by (rewrite Rabs_pos_eq; lra).
  destruct (small_int 0 2 ltac:(lia) A0) as [V0 F0]. destruct (small_int 1 2 ltac:(lia) A1) as [V1 F1]. split; [exact (conj F0 (conj F0 F1))|].
  unfold up_normal, val_vec, dot, pt. cbn [vx vy vz]. rewrite V0, V1. apply Rabs_le. split; lra.
Qed.
Example C99_hyp : exists (r r' : @Ray NumSF) (n1 n2 : VecF),
  let m := @Mirror NumSF (@gray NumSF (@flit NumSF 9 10)) in
  unit_vec64 (direction (r_geometry r)) /\ (forall m' n p, In (m', n, p) [(m, n1, origin slanted); (m, n2, origin slanted)] -> specular_only m' = true /\ unit_vec64 n) /\
  (forall T : Trig NumSF, bounces [(m, n1, origin slanted); (m, n2, origin slanted)] r r') /\
  val_vec n1 <> val_vec n2 /\ val (vz (direction (r_geometry r))) < 0.
Proof.
  pose (m := @Mirror NumSF (@gray NumSF (@flit NumSF 9 10))). pose (r := @set_geometry NumSF (@ray_default NumSF) slanted).
  pose (dd := @mirror_direction NumSF (mirror_direction (direction slanted) up_normal) (direction slanted)).
  exists r, (@set_geometry NumSF (@ray_default NumSF) (mkRay3D (origin slanted) dd)), up_normal, (direction slanted). cbv zeta.
  split; [exact slanted_unit|]. split.
  { intros m' n p [E|[E|[]]]; injection E as <- <- <-; (split; [reflexivity|]); [exact up_normal_unit|exact slanted_unit]. }
  split.
  { intros T. cbn [bounces]. exists r. eexists _, _, _. split; [reflexivity|]. split; [reflexivity|].
    exists (@set_geometry NumSF (@ray_default NumSF) (mkRay3D (origin slanted) (mirror_direction (direction slanted) up_normal))).
    eexists _, _, _. split; [reflexivity|]. split; [reflexivity|]. reflexivity. }
  destruct thirds as ((V1 & F1) & (V2 & F2) & (V3' & F3)). split.
  - intros Q. apply (f_equal vx) in Q. unfold up_normal, slanted, val_vec, pt in Q. cbn [direction vx vy vz] in Q. rewrite V1 in Q.
    assert (A0 : Rabs (IZR 0) <= 2) by (rewrite Rabs_pos_eq; lra). destruct (small_int 0 2 ltac:(lia) A0) as [V0 _]. rewrite V0 in Q. lra.
  - unfold r, slanted. cbn [set_geometry r_geometry direction vz]. rewrite V3'. lra.
Qed.
