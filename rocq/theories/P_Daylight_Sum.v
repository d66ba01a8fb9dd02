(** * Property C69: where the daylight coefficients come from (any arithmetic) *)
From Verif Require Import Num Geometry Triangle Sphere Colour ColourMatrix SpecMatrix MatrixProofs Ray Bvh Material Scene Samplers Primitives RayTracer SpecTracer TracerProofs Daylight SpecDaylight DaylightProofs.

Section Spread.
  Context {N : Num} {T : Trig N} {E : Ext} {RG : Gen N} {O : Geo}.
  Variables (fuel : nat) (d : DCFactory) (s : Scene).
  (** the row c' is the row c after the deposits *)
  Definition credited (ds : list Deposit) (c c' : Contribution) : Prop :=
    (forall n, row_shaped n c -> row_shaped n c') /\
    forall n, row_shaped n c -> Forall (fun x => (fst x < n)%nat) ds /\ forall j, (j < n)%nat -> exists v, mat_get c 0 j = Some v /\ mat_get c' 0 j = Some (given j ds v).
  Lemma credited_nil c : credited [] c c.
  Proof.
    split; [auto|]. intros n (S1 & S2 & S3). split; [constructor|]. intros j Hj. destruct (mat_get_some c 0 j S1) as [v Hv]; [lia|lia|]. exists v. split; [exact Hv|exact Hv].
  Qed.
  Lemma credited_app ds1 ds2 c c1 c2 : credited ds1 c c1 -> credited ds2 c1 c2 -> credited (ds1 ++ ds2) c c2.
  Proof.
    intros [A1 A2] [B1 B2]. split; [auto|]. intros n HS. destruct (A2 n HS) as [F1 K1], (B2 n (A1 n HS)) as [F2 K2].
    split; [apply Forall_app; split; assumption|]. intros j Hj. destruct (K1 j Hj) as (v & V1 & V2), (K2 j Hj) as (v' & W1 & W2). exists v. split; [exact V1|].
    rewrite V2 in W1. injection W1 as <-. rewrite W2. unfold given. rewrite filter_app, map_app, fold_left_app. reflexivity.
  Qed.
  Lemma credited_gift r c c' : reach_sky d r c = Ret c' -> credited [gift d r] c c'.
  Proof.
    intros H. assert (K : forall n, row_shaped n c -> row_shaped n c' /\ (fst (gift d r) < n)%nat /\ forall j, (j < n)%nat -> exists v, mat_get c 0 j = Some v /\ mat_get c' 0 j = Some (given j [gift d r] v)).
    { intros n HS. pose proof HS as (_ & _ & HC). subst n. destruct (reach_sky_step _ _ _ _ H HS) as (K1 & K2 & K3). split; [exact K1|]. split; [exact K2|].
      intros j Hj. destruct (K3 j Hj) as (v & V1 & V2). exists v. split; [exact V1|]. rewrite V2. unfold given, gift. cbn [filter fst].
      rewrite Nat.eqb_sym. destruct (Nat.eqb _ j); reflexivity. }
    split; [intros n HS; apply (K n HS)|]. intros n HS. destruct (K n HS) as (_ & K2 & K3). split; [constructor; [exact K2|constructor]|exact K3].
  Qed.

  Definition explained (trace : DCTrace) : Prop := forall r c aux g r' c' aux' g', trace r c aux g = Ret (r', c', aux', g') ->
    exists ds, spreads fuel d s r ds r' /\ credited ds c c'.
  Lemma path_spreads trace p c aux g c' aux' g' : explained trace -> dc_specular_path trace d p c aux g = Ret (c', aux', g') ->
    exists ds, sends fuel d s p ds /\ credited ds c c'.
  Proof.
    intros HT. destruct p as [[q v]|]; cbn [dc_specular_path].
    - cbv zeta. destruct (gen g) as [x g1]. destruct (trace _ _ _ _) as [[[[r3 c3] a3] g3]| |] eqn:TR; cbn [obind]; try discriminate.
      intros H. injection H as <- <- <-. apply HT in TR as (ds & D1 & D2). exists ds. split; [|exact D2]. eapply sends_some; [reflexivity| |exact D1].
      destruct (fltb x _); [right|left]; reflexivity.
    - intros H. injection H as <- <- <-. exists []. split; [constructor|apply credited_nil].
  Qed.
  Lemma ambient_spreads trace m r0 : explained trace -> forall n r c aux g r' c' aux' g',
    dc_ambient trace fuel m (point_of r0) (normal_of r0) (i_dpdu (x_shading (r_interaction r0))) (i_dpdv (x_shading (r_interaction r0))) n r c aux g = Ret (r', c', aux', g') ->
    exists ds, bounces fuel d s m r0 n r ds r' /\ credited ds c c'.
  Proof.
    intros HT. induction n as [|n IH]; intros r c aux g r' c' aux' g'; cbn [dc_ambient].
    - intros H. injection H as <- <- <- <-. exists []. split; [constructor|apply credited_nil].
    - destruct (sample_bsdf_draw _ _ _ _ _ _ _ _) as [[[[bv pdf] r1] g1]| |] eqn:SB; cbn [obind]; try discriminate. cbv zeta.
      destruct (trace _ _ _ _) as [[[[r3 c3] a3] g3]| |] eqn:TR; cbn [obind]; try discriminate. intros H.
      apply HT in TR as (ds1 & D1 & D2). apply IH in H as (ds2 & D3 & D4). exists (ds1 ++ ds2). split; [|eapply credited_app; eassumption].
      eapply bounces_more; [exact SB|exact D1|exact D3].
  Qed.
  Lemma dc_trace_spreads nest : explained (dc_trace nest fuel d s).
  Proof.
    induction nest as [|nest IH]; intros r c aux g r' c' aux' g'; cbn [dc_trace]; [discriminate|].
    destruct (cast_ray fuel s r (h_nodes aux)) as [[[hit r1] nodes]| |] eqn:CR; cbn [obind]; try discriminate. cbv zeta.
    pose proof (cast_keeps _ _ _ _ _ _ _ CR) as (K1 & K2 & K3 & K4 & K5).
    destruct hit as [z|].
    2:{ destruct (reach_sky d r1 c) as [c1| |] eqn:RS; cbn [obind]; try discriminate. intros H. injection H as <- <- <- <-.
        exists [gift d r1]. split; [|apply credited_gift; exact RS]. apply spreads_sky. do 2 eexists. exact CR. }
    assert (ME : meets fuel s r (Z.to_nat z) r1) by (exists z, (h_nodes aux), nodes; split; [exact CR|reflexivity]).
    destruct (Nat.ltb_spec (dc_max_depth d) (r_depth r1)) as [L|L].
    { intros H. injection H as <- <- <- <-. exists []. split; [|apply credited_nil]. eapply spreads_too_far; [exact ME|lia]. }
    destruct (hit_material s r1 (Z.to_nat z)) as [[m|]| |] eqn:HM; cbn [obind]; try discriminate.
    2:{ unfold hit_material in HM. destruct (i_side (x_shading (r_interaction r1))) eqn:SI.
        - destruct (nth_error (a_front (sc_arrays s)) (Z.to_nat z)); cbn in HM; try discriminate; destruct (nth_error _ _); discriminate.
        - destruct (nth_error (a_back (sc_arrays s)) (Z.to_nat z)); cbn in HM; try discriminate; destruct (nth_error _ _); discriminate.
        - intros H. injection H as <- <- <- <-. exists []. split; [|apply credited_nil]. eapply spreads_edge; [exact ME|lia|exact SI]. }
    assert (FA : facing s r1 (Z.to_nat z) m).
    { unfold hit_material in HM. unfold facing, side_hit. destruct (i_side (x_shading (r_interaction r1))) eqn:SI; [| |discriminate].
      - destruct (nth_error (a_front (sc_arrays s)) (Z.to_nat z)) as [k|] eqn:Q; cbn [ret_opt obind] in HM; [|discriminate]. destruct (nth_error (sc_materials s) k) as [mm|] eqn:Q2; cbn [ret_opt obind] in HM; [|discriminate].
        injection HM as HM. subst mm. exists k. split; [exact Q2|]. left. split; reflexivity.
      - destruct (nth_error (a_back (sc_arrays s)) (Z.to_nat z)) as [k|] eqn:Q; cbn [ret_opt obind] in HM; [|discriminate]. destruct (nth_error (sc_materials s) k) as [mm|] eqn:Q2; cbn [ret_opt obind] in HM; [|discriminate].
        injection HM as HM. subst mm. exists k. split; [exact Q2|]. right. split; reflexivity. }
    clear HM. cbn [orb]. destruct (emits_direct_light m) eqn:EL.
    { intros H. injection H as <- <- <- <-. exists []. split; [|apply credited_nil]. eapply spreads_light; [exact ME|lia|exact FA|]. destruct m; try discriminate. eexists. reflexivity. }
    unfold get_triad at 1. destruct (nth_error (a_norm (sc_arrays s)) (Z.to_nat z)) as [normals|] eqn:Hn; cbn [ret_opt obind]; [|discriminate].
    set (r2 := set_shading r1 _). assert (SH : shaded s r1 (Z.to_nat z) r2) by (exists normals; split; [exact Hn|reflexivity]).
    assert (P2 : point_of r1 = point_of r2) by reflexivity. clearbody r2. destruct (specular_only m) eqn:SO.
    - destruct (get_possible_paths _ _ _ _) as [[p1 p2]| |] eqn:PP; cbn [obind]; try discriminate.
      destruct (dc_specular_path _ _ p1 _ _ _) as [[[c1 a1] g1]| |] eqn:Q1; cbn [obind]; try discriminate.
      destruct (dc_specular_path _ _ p2 _ _ _) as [[[c2 a2] g2]| |] eqn:Q2; cbn [obind]; try discriminate.
      intros H. injection H as <- <- <- <-. destruct (path_spreads _ _ _ _ _ _ _ _ IH Q1) as (ds1 & X1 & X2), (path_spreads _ _ _ _ _ _ _ _ IH Q2) as (ds2 & Y1 & Y2).
      exists (ds1 ++ ds2). split; [|eapply credited_app; eassumption]. eapply spreads_through; try eassumption; [|lia].
      destruct m; cbn in SO; try discriminate; [left; eauto|right; left; eauto|right; right; eauto].
    - destruct (draw_n_ambient_samples (dc_tracer d) r2 g) as [[n r3] g1] eqn:DN.
      assert (HN : (exists q, get_n_ambient_samples r2 (dc_n_ambient_samples d) (dc_max_depth d) (dc_limit_weight d) q = (n, r3)) /\ get_triad r3 = get_triad r2).
      { revert DN. unfold draw_n_ambient_samples. cbn [max_depth n_ambient_samples limit_weight dc_tracer].
        destruct (_ || _); [intros DN; injection DN as DN _; split; [exists f0; exact DN|]|destruct (gen g) as [q g2]; intros DN; injection DN as DN _; split; [exists q; exact DN|]];
          unfold get_n_ambient_samples in DN; repeat match type of DN with context [if ?b then _ else _] => destruct b end; injection DN as _ <-; reflexivity. }
      destruct HN as [(q & HN) TG]. unfold store_ray. match goal with |- context [if ?b then _ else Crash] => destruct b end; cbn [obind]; [|discriminate].
      rewrite TG. unfold get_triad at 1. change (x_point (r_interaction r1)) with (point_of r1). rewrite P2. intros H.
      destruct (ambient_spreads _ m r2 IH _ _ _ _ _ _ _ _ _ H) as (ds & D1 & D2). exists ds. split; [|exact D2].
      eapply spreads_surface; try eassumption; [|lia]. destruct m; cbn in SO, EL; try discriminate; [left; eauto|right; eauto].
  Qed.
End Spread.

(** Whatever tracing a ray for daylight coefficients returns, the row of bins has received exactly the amounts [spreads] describes. *)
Theorem C69_ray : forall (N : Num) (T : Trig N) (E : Ext) (RG : Gen N) (O : Geo) nest fuel (d : DCFactory) (s : Scene) r n c aux g r' c' aux' g',
  m_rows c = 1%nat -> m_cols c = n -> length (m_data c) = n ->
  dc_trace nest fuel d s r c aux g = Ret (r', c', aux', g') ->
  exists ds, spreads fuel d s r ds r' /\ Forall (fun x => (fst x < n)%nat) ds /\ m_rows c' = 1%nat /\ m_cols c' = n /\
    forall j, (j < n)%nat -> exists v, mat_get c 0 j = Some v /\ mat_get c' 0 j = Some (given j ds v).
Proof.
  intros N T E RG O nest fuel d s r n c aux g r' c' aux' g' H1 H2 H3 H. destruct (dc_trace_spreads fuel d s nest _ _ _ _ _ _ _ _ H) as (ds & D1 & D2 & D3).
  assert (HS : row_shaped n c) by (split; [unfold sized; rewrite H1, H2, H3; lia|split; assumption]).
  exists ds. split; [exact D1|]. destruct (D3 n HS) as [F1 F2]. destruct (D2 n HS) as (_ & G1 & G2). auto.
Qed.
Print Assumptions C69_ray.

Lemma black_row {N : Num} (n j : nat) v : (j < n)%nat -> mat_get (mat_new (@BLACK N) 1 n) 0 j = Some v -> v = BLACK.
Proof.
  intros H. unfold mat_get, mat_new. cbn [m_rows m_cols m_data]. destruct (Nat.ltb_spec j n); [|lia]. cbn [Nat.ltb Nat.leb andb Nat.mul Nat.add].
  rewrite Nat.add_0_r, nth_error_repeat by exact H. congruence.
Qed.

(** The whole matrix: entry (i, j) is the sum over the primary rays of sensor i of what each gives to bin j. *)
Theorem C69_matrix : forall (N : Num) (T : Trig N) (E : Ext) (RG : Gen N) (O : Geo) nest fuel (d : DCFactory) (s : Scene) rays seed seeds M,
  calc_dc nest fuel d rays s seed seeds = Ret M ->
  m_rows M = length rays /\ m_cols M = n_bins (dc_reinhart d) /\
  forall i ray, nth_error rays i = Some ray -> exists e2 shares,
    get_perpendicular (direction ray) = Some e2 /\
    Forall2 (fun l ds => exists r r', leaves ray e2 l r /\ spreads fuel d s r ds r') (draw_directions (dc_n_ambient_samples d) (seed i)) shares /\
    forall j, (j < n_bins (dc_reinhart d))%nat ->
      mat_get M i j = Some (fold_left sadd (map (fun ds => given j ds BLACK) shares) BLACK).
Proof.
  intros N T E RG O nest fuel d s rays seed seeds M H. destruct (calc_dc_spec nest fuel d rays s seed seeds) as [K1 K2].
  destruct (K2 M H) as (dcs & HM). destruct (K1 dcs HM) as (m' & E1 & E2 & E3 & E4 & E5). rewrite H in E1. injection E1 as <-.
  split; [exact E3|]. split; [exact E4|]. intros i ray Hi. apply map_out_ret in HM as [HL HR].
  destruct (nth_error_same_length rays dcs i ray (eq_sym HL) Hi) as [row Hrow]. pose proof (HR i ray row Hi Hrow) as HS. cbn [Nat.add] in HS.
  apply dc_sensor_sum in HS as (e2 & rows & GP & RL & RP & RA). exists e2.
  assert (DL : forall n g, length (draw_directions n g) = n).
  { induction n as [|n IH]; intros g0; cbn [draw_directions]; [reflexivity|]. destruct (gen g0) as [a g1], (gen g1) as [b g2]. cbn. rewrite IH. reflexivity. }
  set (nb := n_bins (dc_reinhart d)) in *. set (P := fun l row => exists k, dc_primary nest fuel d s (primary_ray (vcross e2 (direction ray)) e2 (direction ray) (origin ray) l) (seeds i k) = Ret row).
  assert (HP : Forall2 P (draw_directions (dc_n_ambient_samples d) (seed i)) rows).
  { assert (LL : length (draw_directions (dc_n_ambient_samples d) (seed i)) = length rows) by (rewrite DL, RL; reflexivity).
    assert (HK : forall k l row, nth_error (draw_directions (dc_n_ambient_samples d) (seed i)) k = Some l -> nth_error rows k = Some row -> P l row) by (intros k l rw A B; exists k; eapply RP; eassumption).
    revert LL HK. generalize (draw_directions (dc_n_ambient_samples d) (seed i)). clear. induction rows as [|rw rows IH]; intros [|l ls] LL HK; try discriminate; constructor.
    - apply (HK 0%nat); reflexivity.
    - apply IH; [cbn in LL; lia|]. intros k l' rw' A B. apply (HK (S k)); assumption. }
  assert (HD : exists shares, Forall2 (fun l ds => exists r r', leaves ray e2 l r /\ spreads fuel d s r ds r') (draw_directions (dc_n_ambient_samples d) (seed i)) shares /\
     Forall2 (fun rw ds => row_shaped nb rw /\ forall j, (j < nb)%nat -> mat_get rw 0 j = Some (given j ds BLACK)) rows shares).
  { clear RA RL RP. induction HP as [|l rw ls rows Hl _ IH]; [exists []; split; constructor|]. destruct IH as (sh & S1 & S2). destruct Hl as (k & Hk).
    unfold dc_primary in Hk. destruct (dc_trace _ _ _ _ _ _ _ _) as [[[[r' c'] a'] g']| |] eqn:TR; cbn [obind] in Hk; try discriminate. injection Hk as <-.
    destruct (dc_trace_spreads fuel d s nest _ _ _ _ _ _ _ _ TR) as (ds & D1 & D2 & D3). exists (ds :: sh). split; constructor; try assumption.
    - exists (primary_ray (vcross e2 (direction ray)) e2 (direction ray) (origin ray) l), r'. split; [repeat split; reflexivity|exact D1].
    - pose proof (row_new nb) as HN. split; [apply D2; exact HN|]. intros j Hj. destruct (D3 nb HN) as [_ K]. destruct (K j Hj) as (v & V1 & V2).
      rewrite V2. apply black_row in V1; [|exact Hj]. subst v. reflexivity. }
  destruct HD as (shares & S1 & S2). exists shares. split; [exact GP|]. split; [exact S1|]. intros j Hj. rewrite (E5 i j row Hrow Hj).
  assert (F : Forall (row_shaped nb) rows) by (clear - S2; induction S2 as [|? ? ? ? [A _] _ IH]; constructor; auto).
  destruct (add_all_entries nb rows _ (row_new nb) F) as (c' & A1 & A2 & A3). rewrite RA in A1. injection A1 as <-.
  destruct (A3 j Hj) as (x & ys & X1 & X2 & X3). rewrite X3. f_equal.
  assert (x = BLACK) as -> by (eapply black_row; eassumption).
  f_equal. clear - S2 X2 Hj. revert ys X2. induction S2 as [|rw ds rows sh [_ HW] _ IH]; intros [|y ys] X2; try discriminate; cbn [map] in *; [reflexivity|].
  injection X2 as Y1 Y2. assert (Q : Some (given j ds BLACK) = Some y) by (rewrite <- (HW j Hj); exact Y1). injection Q as <-. f_equal. apply IH. exact Y2.
Qed.
Print Assumptions C69_matrix.
