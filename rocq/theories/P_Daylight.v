(** * C50, C51: daylight coefficients *)
From Verif Require Import NumR Geometry Triangle Sphere Colour ColourMatrix SpecMatrix MatrixProofs Ray Bvh Material Scene Samplers Primitives RayTracer Daylight DaylightProofs DaylightReal
  TracerProofs TracerSafe TracerScenes TracerCorridor TracerLone SpecGeom SpecBvh SpecScene TriangleProofs BvhReal BvhQuery BvhExamples SpecOptics MaterialProofs
  P_Triangle P_Frame P_Bvh P_Material P_Tracer P_Samplers.
Open Scope R_scope.

(** ** any arithmetic *)
(** one row per sensor, one column per bin of the sky, and every element present *)
Theorem C50_shape : forall (N : Num) (T : Trig N) (E : Ext) (RG : Gen N) (O : Geo) nest fuel (d : DCFactory) (rays : list Ray3D) (s : Scene) seed seeds m,
  calc_dc nest fuel d rays s seed seeds = Ret m ->
  m_rows m = length rays /\ m_cols m = n_bins (dc_reinhart d) /\
  forall i j, (i < length rays)%nat -> (j < n_bins (dc_reinhart d))%nat -> exists v, mat_get m i j = Some v.
Proof.
  intros N T E RG O nest fuel d rays s seed seeds m H. destruct (calc_dc_spec nest fuel d rays s seed seeds) as [K1 K2].
  destruct (K2 m H) as (dcs & HM). destruct (K1 dcs HM) as (m' & E1 & E2 & E3 & E4 & _). rewrite H in E1. injection E1 as <-.
  split; [exact E3|]. split; [exact E4|]. intros i j Hi Hj. apply mat_get_some; [exact E2|lia|lia].
Qed.
Print Assumptions C50_shape.

(** Row i is the single row of the matrix of sensor i alone, traced with the draws of sensor i; the whole calculation returns exactly
    when each sensor's does.  So neither the other sensors nor the order in which they are processed matter. *)
Theorem C50_rows : forall (N : Num) (T : Trig N) (E : Ext) (RG : Gen N) (O : Geo) nest fuel (d : DCFactory) (rays : list Ray3D) (s : Scene) seed seeds,
  let alone i := match nth_error rays i with Some ray => calc_dc nest fuel d [ray] s (fun _ => seed i) (fun _ => seeds i) | None => Crash end in
  (forall m, calc_dc nest fuel d rays s seed seeds = Ret m -> forall i, (i < length rays)%nat ->
     exists mi, alone i = Ret mi /\ forall j, (j < n_bins (dc_reinhart d))%nat -> mat_get m i j = mat_get mi 0 j) /\
  ((forall i, (i < length rays)%nat -> exists mi, alone i = Ret mi) -> exists m, calc_dc nest fuel d rays s seed seeds = Ret m).
Proof.
  intros N T E RG O nest fuel d rays s seed seeds alone. destruct (calc_dc_spec nest fuel d rays s seed seeds) as [K1 K2]. split.
  - intros m H i Hi. destruct (K2 m H) as (dcs & HM). destruct (K1 dcs HM) as (m' & E1 & _ & _ & _ & E5). rewrite H in E1. injection E1 as <-.
    apply map_out_ret in HM as [HL HR]. apply nth_error_Some in Hi. unfold alone. destruct (nth_error rays i) as [ray|] eqn:Er; [|contradiction].
    destruct (nth_error_same_length rays dcs i ray (eq_sym HL) Er) as [row Hrow]. pose proof (HR i ray row Er Hrow) as HS.
    destruct (calc_dc_spec nest fuel d [ray] s (fun _ => seed i) (fun _ => seeds i)) as [J1 _].
    destruct (J1 [row]) as (mi & F1 & _ & _ & _ & F5). { cbn [map_out]. cbn [Nat.add] in HS. rewrite HS. reflexivity. }
    exists mi. split; [exact F1|]. intros j Hj. rewrite (E5 i j row Hrow Hj). symmetry. apply (F5 0%nat j row); [reflexivity|exact Hj].
  - intros HA. assert (HS : forall i ray, nth_error rays i = Some ray -> exists row, dc_sensor nest fuel d s ray (seed i) (seeds i) = Ret row).
    { intros i ray Er. destruct (HA i) as (mi & Hmi); [apply nth_error_Some; congruence|]. unfold alone in Hmi. rewrite Er in Hmi.
      destruct (calc_dc_spec nest fuel d [ray] s (fun _ => seed i) (fun _ => seeds i)) as [_ J2]. destruct (J2 mi Hmi) as (dcs & HM).
      cbn [map_out] in HM. destruct (dc_sensor nest fuel d s ray (seed i) (seeds i)) as [row| |]; cbn [obind] in HM; try discriminate. eauto. }
    assert (HM : exists dcs, map_out (fun i ray => dc_sensor nest fuel d s ray (seed i) (seeds i)) 0 rays = Ret dcs).
    { clear K1 K2 HA alone. assert (G : forall l k, (forall i ray, nth_error l i = Some ray -> exists row, dc_sensor nest fuel d s ray (seed (k + i)%nat) (seeds (k + i)%nat) = Ret row) ->
        exists dcs, map_out (fun i ray => dc_sensor nest fuel d s ray (seed i) (seeds i)) k l = Ret dcs).
      { induction l as [|x l IH]; intros k HK; cbn [map_out]; [eauto|]. destruct (HK 0%nat x eq_refl) as (row & HR0). rewrite Nat.add_0_r in HR0. rewrite HR0. cbn [obind].
        destruct (IH (S k)) as (dcs & ->); [|cbn [obind]; eauto]. intros i ray Hi. replace (S k + i)%nat with (k + S i)%nat by lia. apply (HK (S i) ray Hi). }
      apply (G rays 0%nat). exact HS. }
    destruct HM as (dcs & HM). destruct (K1 dcs HM) as (m & E1 & _). eauto.
Qed.
Print Assumptions C50_rows.

(** ** exact reals *)
(** the unit perpendicular routine of geometry3d *)
Definition perpendicular_good (O : @Geo NumR) : Prop := forall n : VecR, unit n -> exists e, get_perpendicular n = Some e /\ perpendicular_to n e.
(** every direction belongs to a bin of the sky *)
Definition binned (sky : @ReinhartSky NumR) : Prop := forall v : VecR, unit v -> (dir_to_bin sky v < n_bins sky)%nat.
(** nothing in front of the sensor: no triangle meets a ray that leaves it towards its side *)
Definition unobstructed (s : @Scene NumR) (ray : RayR) : Prop := forall v t k, unit v -> 0 < dot v (direction ray) ->
  In t (a_tri (sc_arrays s)) -> touches (mkRay3D (origin ray) v) t k -> ~ in_sight (mkRay3D (origin ray) v) k.
(** sums and counts *)
Fixpoint total (l : list R) : R := match l with [] => 0 | x :: l => x + total l end.
Definition entry (m : @Contribution NumR) (i j : nat) : @Spectrum NumR := match mat_get m i j with Some v => v | None => gray (0 : R) end.
Definition row_total (channel : @Spectrum NumR -> R) (m : @Contribution NumR) (i : nat) : R := total (map (fun j => channel (entry m i j)) (seq 0 (m_cols m))).
Definition count_in (sky : @ReinhartSky NumR) (j : nat) (dirs : list VecR) : nat := length (filter (fun v => Nat.eqb (dir_to_bin sky v) j) dirs).

Lemma mat_new_get (n j : nat) : (j < n)%nat -> mat_get (mat_new (@BLACK NumR) 1 n) 0 j = Some BLACK.
Proof.
  intros H. unfold mat_get, mat_new. cbn [m_rows m_cols m_data]. destruct (Nat.ltb_spec j n); [|lia]. cbn [Nat.ltb Nat.leb andb Nat.mul Nat.add].
  rewrite Nat.add_0_r. apply nth_error_repeat. exact H.
Qed.
Lemma total_gray (sky : @ReinhartSky NumR) (w : R) (dirs : list VecR) : Forall (fun v => (dir_to_bin sky v < n_bins sky)%nat) dirs ->
  total (map (fun j => w * INR (count_in sky j dirs)) (seq 0 (n_bins sky))) = w * INR (length dirs).
Proof.
  intros HB. induction HB as [|v l Hv Hl IH].
  - cbn [length INR]. rewrite Rmult_0_r. generalize (seq 0 (n_bins sky)) as L. induction L as [|x L IHL]; [reflexivity|]. cbn [map total]. rewrite IHL. unfold count_in. cbn. lra.
  - cbn [length]. rewrite S_INR, Rmult_plus_distr_l, Rmult_1_r, <- IH. clear IH Hl.
    assert (K : forall L, NoDup L -> total (map (fun j => w * INR (count_in sky j (v :: l))) L) =
       total (map (fun j => w * INR (count_in sky j l)) L) + (if in_dec Nat.eq_dec (dir_to_bin sky v) L then w else 0)).
    { induction L as [|x L IHL]; intros ND; [cbn; lra|]. inversion_clear ND as [|? ? N1 N2]. cbn [map total]. rewrite (IHL N2).
      unfold count_in at 1. cbn [filter]. fold (count_in sky x l).
      destruct (in_dec Nat.eq_dec (dir_to_bin sky v) (x :: L)) as [I1|I1], (in_dec Nat.eq_dec (dir_to_bin sky v) L) as [I2|I2], (Nat.eqb_spec (dir_to_bin sky v) x) as [Q|Q];
        cbn [length In] in *; fold (count_in sky x l); rewrite ?S_INR; try lra; exfalso; try (subst x; contradiction); try (destruct I1; [congruence|contradiction]); apply I1; auto. }
    rewrite (K _ (seq_NoDup _ _)). destruct (in_dec _ _ _) as [I1|I1]; [lra|]. exfalso. apply I1. apply in_seq. lia.
Qed.

Section Open.
  Context {E : @Ext NumR} {HE : externals_ok E} {RG : Gen NumR} {O : @Geo NumR}.
  Variable d : @DCFactory NumR.
  Variable s : @Scene NumR.
  Variable fuel : nat.
  Hypothesis Hfind : forall r aux, finds s fuel r aux.
  Hypothesis Hbins : binned (dc_reinhart d).
  Hypothesis Hsamples : (0 < dc_n_ambient_samples d)%nat.
  Notation n := (INR (dc_n_ambient_samples d)).

  (** a primary ray that meets nothing *)
  Lemma open_primary nest (r : @Ray NumR) g : (0 < nest)%nat -> unit (direction (r_geometry r)) -> r_colour r = gray PI ->
    (forall t k, In t (a_tri (sc_arrays s)) -> touches (r_geometry r) t k -> ~ in_sight (r_geometry r) k) ->
    exists c, dc_primary nest fuel d s r g = Ret c /\ row_shaped (n_bins (dc_reinhart d)) c /\
      forall j, (j < n_bins (dc_reinhart d))%nat ->
        mat_get c 0 j = Some (gray (PI / n * INR (count_in (dc_reinhart d) j [direction (r_geometry r)]))).
  Proof.
    intros Hn HU HC HF. destruct nest as [|nest]; [lia|]. unfold dc_primary. cbn [dc_trace].
    destruct (Hfind r (h_nodes helper_default)) as [(j & t & k & x & aux' & CR & X1 & X2 & X3 & _)|(aux' & CR & _)].
    { exfalso. apply (HF t k); [eapply nth_error_In; exact X1|exact X2|exact X3]. }
    rewrite CR. cbn [obind]. cbv zeta.
    assert (RS : exists c, reach_sky d r (mat_new BLACK 1 (n_bins (dc_reinhart d))) = Ret c).
    { unfold reach_sky. cbv zeta. rewrite mat_new_get by (apply Hbins; exact HU). cbn [ret_opt obind].
      match goal with |- context [mat_set ?m 0 ?b ?v] => destruct (mat_set_some m 0 b v) as (m' & -> & _) end;
        [apply mat_new_sized|cbn; lia|cbn; apply Hbins; exact HU|]. cbn [ret_opt]. eauto. }
    destruct RS as (c & RS). rewrite RS. cbn [obind]. exists c. split; [reflexivity|].
    destruct (reach_sky_step d r _ c RS (row_new _)) as (R1 & R2 & R3). cbn [m_cols mat_new] in *. split; [exact R1|].
    intros j Hj. destruct (R3 j Hj) as (old & G1 & G2). rewrite mat_new_get in G1 by exact Hj. injection G1 as <-. rewrite G2. f_equal.
    unfold count_in. cbn [filter]. rewrite (Nat.eqb_sym j). destruct (Nat.eqb _ j).
    - rewrite HC. cbn [length]. 
      assert (QN : @fofZ NumR (Z.of_nat (dc_n_ambient_samples d)) = n) by (change (IZR (Z.of_nat (dc_n_ambient_samples d)) = n); rewrite <- INR_IZR_INZ; reflexivity).
      rewrite QN. assert (0 < n) by (apply lt_0_INR; exact Hsamples).
      unfold gray, sadd, smul, sdivf, smap, smap2, ONE, BLACK. cbn [sr sg sb INR].
      assert (Q : 0/1 + 1/1 * PI / n = PI / n * 1) by (field; lra). change (@fadd NumR) with Rplus. change (@fmul NumR) with Rmult. change (@fdiv NumR) with Rdiv.
      change (@f0 NumR) with (0/1). change (@f1 NumR) with (1/1). f_equal; exact Q.
    - cbn [length INR]. unfold gray, BLACK. change (@f0 NumR) with (0/1). f_equal; lra.
  Qed.

  Lemma fold_gray (w : R) (dirs : list VecR) j : forall (a : R),
    fold_left sadd (map (fun v => @gray NumR (w * INR (count_in (dc_reinhart d) j [v]))) dirs) (@gray NumR a) =
    @gray NumR (a + w * INR (count_in (dc_reinhart d) j dirs)).
  Proof.
    induction dirs as [|v l IH]; intros a; cbn [map fold_left].
    - unfold count_in. cbn. f_equal. lra.
    - change (sadd (@gray NumR a) (@gray NumR (w * INR (count_in (dc_reinhart d) j [v])))) with (@gray NumR (a + w * INR (count_in (dc_reinhart d) j [v]))).
      rewrite IH. f_equal. unfold count_in. cbn [filter]. destruct (Nat.eqb (dir_to_bin (dc_reinhart d) v) j); cbn [length]; rewrite ?S_INR; cbn [INR]; lra.
  Qed.

  Hypothesis Hperp : perpendicular_good O.
  Hypothesis Hfair : fair RG.

  Lemma open_sensor nest (ray : RayR) g seeds : (0 < nest)%nat -> unit (direction ray) -> unobstructed s ray ->
    exists c dirs, dc_sensor nest fuel d s ray g seeds = Ret c /\ row_shaped (n_bins (dc_reinhart d)) c /\
      length dirs = dc_n_ambient_samples d /\ Forall (fun v => unit v /\ 0 < dot v (direction ray)) dirs /\
      forall j, (j < n_bins (dc_reinhart d))%nat -> mat_get c 0 j = Some (gray (PI / n * INR (count_in (dc_reinhart d) j dirs))).
  Proof.
    intros Hn HU HO. destruct (Hperp (direction ray) HU) as (e2 & GP & PT). pose proof (frame_of _ _ HU PT) as FR.
    set (e1 := @vcross NumR e2 (direction ray)). assert (FR' : frame e1 e2 (direction ray)) by exact FR.
    set (world := fun l : VecR => @local_to_world NumR e1 e2 (direction ray) vorigin (vx l) (vy l) (vz l)).
    (* the directions *)
    assert (HD : forall k g, Forall (fun l => unit (world l) /\ 0 < dot (world l) (direction ray)) (draw_directions k g)).
    { induction k as [|k IH]; intros g0; cbn [draw_directions]; [constructor|].
      pose proof (Hfair g0) as D1. destruct (gen g0) as [x1 g1]. cbn [fst] in D1. destruct (gen g1) as [x2 g2]. constructor; [|apply IH].
      destruct (C52_cosine_hemisphere x1 x2 e1 e2 (direction ray) D1 FR') as (_ & A & B). split; assumption. }
    (* the rows *)
    assert (HRows : forall ls k, Forall (fun l => unit (world l) /\ 0 < dot (world l) (direction ray)) ls ->
      exists rows, map_out (fun k l => dc_primary nest fuel d s (primary_ray e1 e2 (direction ray) (origin ray) l) (seeds k)) k ls = Ret rows /\
        Forall (row_shaped (n_bins (dc_reinhart d))) rows /\
        forall j, (j < n_bins (dc_reinhart d))%nat -> map (fun c => mat_get c 0 j) rows =
          map Some (map (fun v => @gray NumR (PI / n * INR (count_in (dc_reinhart d) j [v]))) (map world ls))).
    { induction ls as [|l ls IH]; intros k HF; cbn [map_out].
      - exists []. split; [reflexivity|]. split; [constructor|reflexivity].
      - inversion_clear HF as [|? ? [H1 H2] H3].
        destruct (open_primary nest (primary_ray e1 e2 (direction ray) (origin ray) l) (seeds k) Hn) as (c & P1 & P2 & P3); [exact H1|reflexivity| |].
        { intros t kk Hin HT. apply (HO (world l) t kk H1 H2 Hin). exact HT. }
        rewrite P1. cbn [obind]. destruct (IH (S k) H3) as (rows & -> & Q2 & Q3). cbn [obind]. exists (c :: rows). split; [reflexivity|]. split; [constructor; assumption|].
        intros j Hj. cbn [map]. rewrite (P3 j Hj), (Q3 j Hj). reflexivity. }
    destruct (HRows (draw_directions (dc_n_ambient_samples d) g) 0%nat (HD _ _)) as (rows & R1 & R2 & R3).
    destruct (add_all_entries _ rows _ (row_new _) R2) as (c & A1 & A2 & A3).
    exists c, (map world (draw_directions (dc_n_ambient_samples d) g)). split.
    { unfold dc_sensor. cbv zeta. rewrite GP. cbn [ret_opt obind]. fold e1. rewrite R1. cbn [obind]. exact A1. }
    split; [exact A2|]. split.
    { rewrite map_length. clear. revert g. generalize (dc_n_ambient_samples d). induction n as [|n IH]; intros g; cbn [draw_directions]; [reflexivity|].
      destruct (gen g) as [a g1], (gen g1) as [b g2]. cbn. rewrite (IH g2). reflexivity. }
    split; [apply Forall_map; apply HD|].
    intros j Hj. destruct (A3 j Hj) as (x & ys & B1 & B2 & B3). rewrite mat_new_get in B1 by exact Hj. injection B1 as <-. rewrite B3. f_equal.
    rewrite (R3 j Hj) in B2. assert (INJ : forall (a b : list (@Spectrum NumR)), map Some a = map Some b -> a = b).
    { induction a as [|u a IHa]; intros [|v b] Q; cbn in Q; try discriminate; [reflexivity|]. injection Q as -> Q. f_equal. auto. }
    apply INJ in B2. subst ys. change (@BLACK NumR) with (@gray NumR (0/1)). rewrite fold_gray. f_equal. lra.
  Qed.
End Open.

(** An unobstructed sensor: for every scene, every number of samples and all draws, the coefficient of a bin is pi times the
    fraction of the sampled directions that fall into that bin, so every row sums to pi, channel by channel. *)
Theorem C50_open : forall (E : @Ext NumR) (RG : Gen NumR) (O : @Geo NumR) h s0, externals_ok E -> fair RG -> perpendicular_good O ->
  play scene_new h = Ret s0 -> manageable s0 ->
  exists s, made h s /\ forall (d : @DCFactory NumR) (rays : list RayR) seed seeds nest fuel,
    binned (dc_reinhart d) -> (0 < dc_n_ambient_samples d)%nat -> (0 < nest)%nat -> (2 * length (a_tri (sc_arrays s0)) <= fuel)%nat ->
    Forall (fun ray => unit (direction ray) /\ unobstructed s ray) rays ->
    exists m, calc_dc nest fuel d rays s seed seeds = Ret m /\
    forall i ray, nth_error rays i = Some ray ->
      (exists dirs, length dirs = dc_n_ambient_samples d /\ Forall (fun v => unit v /\ 0 < dot v (direction ray)) dirs /\
         forall j, (j < n_bins (dc_reinhart d))%nat ->
           entry m i j = gray (PI * (INR (count_in (dc_reinhart d) j dirs) / INR (dc_n_ambient_samples d)))) /\
      row_total sr m i = PI /\ row_total sg m i = PI /\ row_total sb m i = PI.
Proof.
  intros E RG O h s0 HE HF HPp HP HM. destruct (rebuilt (HE := HE) h s0 HP HM) as (s & HB & _ & _ & _ & _ & _ & _ & _ & _ & HQ).
  exists s. split; [exists s0; split; assumption|]. intros d rays seed seeds nest fuel Hb Hn Hnest Hfuel HR. destruct (HQ fuel Hfuel) as [HFi _].
  assert (HS : forall l k, Forall (fun ray => unit (direction ray) /\ unobstructed s ray) l -> exists dcs,
    map_out (fun i ray => dc_sensor nest fuel d s ray (seed i) (seeds i)) k l = Ret dcs /\
    forall i ray, nth_error l i = Some ray -> exists row dirs, nth_error dcs i = Some row /\ length dirs = dc_n_ambient_samples d /\
      Forall (fun v => unit v /\ 0 < dot v (direction ray)) dirs /\
      forall j, (j < n_bins (dc_reinhart d))%nat -> mat_get row 0 j = Some (gray (PI / INR (dc_n_ambient_samples d) * INR (count_in (dc_reinhart d) j dirs)))).
  { induction l as [|x l IH]; intros k HFo; cbn [map_out].
    - exists []. split; [reflexivity|]. intros [|i] ray Q; discriminate.
    - inversion_clear HFo as [|? ? [H1 H2] H3].
      destruct (open_sensor d s fuel HFi Hb Hn HPp HF nest x (seed k) (seeds k) Hnest H1 H2) as (c & dirs & S1 & _ & S2 & S3 & S4).
      destruct (IH (S k) H3) as (dcs & M1 & M2). rewrite S1, M1. cbn [obind]. exists (c :: dcs). split; [reflexivity|].
      intros [|i] ray Hi; cbn [nth_error] in *; [|apply M2; exact Hi]. injection Hi as <-. exists c, dirs. auto. }
  destruct (HS rays 0%nat HR) as (dcs & M1 & M2). destruct (calc_dc_spec nest fuel d rays s seed seeds) as [K1 _].
  destruct (K1 dcs M1) as (m & E1 & E2 & E3 & E4 & E5). exists m. split; [exact E1|]. intros i ray Hi.
  destruct (M2 i ray Hi) as (row & dirs & Q1 & Q2 & Q3 & Q4).
  assert (EN : forall j, (j < n_bins (dc_reinhart d))%nat -> entry m i j = gray (PI * (INR (count_in (dc_reinhart d) j dirs) / INR (dc_n_ambient_samples d)))).
  { intros j Hj. unfold entry. rewrite (E5 i j row Q1 Hj), (Q4 j Hj). f_equal. unfold Rdiv. match goal with |- ?a = ?b => change (@eq R a b) end. ring. }
  split; [exists dirs; auto|].
  assert (HN : 0 < INR (dc_n_ambient_samples d)) by (apply lt_0_INR; exact Hn).
  assert (HD : Forall (fun v => (dir_to_bin (dc_reinhart d) v < n_bins (dc_reinhart d))%nat) dirs).
  { eapply Forall_impl; [|exact Q3]. intros v [U _]. apply Hb. exact U. }
  assert (RT : forall ch : @Spectrum NumR -> R, (forall x : R, ch (gray x) = x) -> row_total ch m i = PI).
  { intros ch Hch. unfold row_total. rewrite E4. 
    replace (map _ (seq 0 (n_bins (dc_reinhart d)))) with (map (fun j => PI / INR (dc_n_ambient_samples d) * INR (count_in (dc_reinhart d) j dirs)) (seq 0 (n_bins (dc_reinhart d)))).
    - rewrite total_gray by exact HD. rewrite Q2. field. lra.
    - apply map_ext_in. intros j Hj. apply in_seq in Hj. rewrite EN by lia. rewrite Hch. unfold Rdiv. ring. }
  repeat split; apply RT; reflexivity.
Qed.
Print Assumptions C50_open.

(** ** entries are not negative *)
(** For scenes of triangles with physical materials whose glossy lobe is off: whatever the depth, the draws and the sensors. *)
Theorem C50_nonnegative_partial : forall (E : @Ext NumR) (RG : Gen NumR) (O : @Geo NumR) h s0, externals_ok E -> fair RG -> perpendicular_good O ->
  play scene_new h = Ret s0 -> manageable s0 -> all_triangles h -> Forall physical (sc_materials s0) ->
  exists s, made h s /\ forall (d : @DCFactory NumR) (rays : list RayR) seed seeds nest fuel, (2 * length (a_tri (sc_arrays s0)) <= fuel)%nat ->
    Forall (fun ray => unit (direction ray)) rays ->
    forall m, calc_dc nest fuel d rays s seed seeds = Ret m ->
    forall i j v, (i < length rays)%nat -> (j < n_bins (dc_reinhart d))%nat -> mat_get m i j = Some v -> 0 <= sr v /\ 0 <= sg v /\ 0 <= sb v.
Proof.
  intros E RG O h s0 HE HF HPp HP HM HT HPh. destruct (rebuilt (HE := HE) h s0 HP HM) as (s & HB & E1 & _ & _ & _ & _ & Ha & Hrec & _ & HQ).
  exists s. split; [exists s0; split; assumption|]. intros d rays seed seeds nest fuel Hfuel HU m HC i j v Hi Hj Hv. destruct (HQ fuel Hfuel) as [HFi _].
  destruct (calc_dc_spec nest fuel d rays s seed seeds) as [K1 K2]. destruct (K2 m HC) as (dcs & HD). destruct (K1 dcs HD) as (m' & G1 & _ & _ & _ & G5).
  rewrite HC in G1. injection G1 as <-. apply map_out_ret in HD as [HL HR].
  apply nth_error_Some in Hi. destruct (nth_error rays i) as [ray|] eqn:Er; [|contradiction].
  destruct (nth_error_same_length rays dcs i ray (eq_sym HL) Er) as [row Hrow]. rewrite (G5 i j row Hrow Hj) in Hv.
  pose proof (HR i ray row Er Hrow) as HS. apply dc_sensor_sum in HS as (e2 & rows & GP & RL & RP & RA).
  assert (Ur : unit (direction ray)) by (rewrite Forall_forall in HU; apply HU; eapply nth_error_In; exact Er).
  destruct (HPp _ Ur) as (e2' & GP' & PT). rewrite GP in GP'. injection GP' as <-. pose proof (frame_of _ _ Ur PT) as FR.
  assert (HPrim : forall k row, nth_error rows k = Some row -> row_shaped (n_bins (dc_reinhart d)) row /\ forall j v, (j < n_bins (dc_reinhart d))%nat -> mat_get row 0 j = Some v -> nonneg v).
  { intros k row' Hk. 
    assert (DL : forall n g, length (@draw_directions NumR TrigR RG n g) = n).
    { induction n as [|n IH]; intros g0; cbn [draw_directions]; [reflexivity|]. destruct (gen g0) as [a g1], (gen g1) as [b g2]. cbn. rewrite IH. reflexivity. }
    destruct (nth_error_same_length rows (draw_directions (dc_n_ambient_samples d) (seed (0 + i)%nat)) k row') as [l Hl]; [rewrite DL; exact RL|exact Hk|].
    pose proof (RP k l row' Hl Hk) as HPr. pose proof (dc_primary_shape _ _ _ _ _ _ _ HPr) as HSh. split; [exact HSh|].
    unfold dc_primary in HPr. match type of HPr with context [dc_trace ?a ?b ?c0 ?d0 ?e0 ?f ?g0 ?h0] => destruct (dc_trace a b c0 d0 e0 f g0 h0) as [[[[r' c'] a'] g']| |] eqn:TR end; cbn [obind] in HPr; try discriminate. injection HPr as <-.
    assert (SR : sound_ray (primary_ray (vcross e2 (direction ray)) e2 (direction ray) (origin ray) l)).
    { assert (HD : exists x1 x2, l = @sample_cosine_weighted_horizontal_hemisphere NumR TrigR x1 x2 /\ draw x1).
      { clear - Hl HF. revert k Hl. generalize (seed (0 + i)%nat). induction (dc_n_ambient_samples d) as [|n IH]; intros g k Hl; cbn [draw_directions] in Hl; [destruct k; discriminate|].
        pose proof (HF g) as D1. destruct (gen g) as [x1 g1], (gen g1) as [x2 g2]. destruct k as [|k]; cbn [nth_error] in Hl; [|eapply IH; exact Hl].
        injection Hl as <-. exists x1, x2. split; [reflexivity|exact D1]. }
      destruct HD as (x1 & x2 & -> & D1). destruct (C52_cosine_hemisphere x1 x2 _ _ _ D1 FR) as (_ & A & _).
      split; [exact A|]. split; [cbn; lra|]. apply nonneg_gray. pose proof PI_RGT_0. change (0 <= PI). lra. }
    destruct (trace_sound HF s fuel HFi Ha h Hrec HT ltac:(rewrite E1; exact HPh) d nest _ _ _ _ _ _ _ _ SR TR) as [_ DP].
    apply (deposits_nonneg d _ _ _ DP (row_new _)). intros j' v' Hj' Hv'. rewrite mat_new_get in Hv' by exact Hj'. injection Hv' as <-. repeat split; cbn; lra. }
  assert (FR' : Forall (row_shaped (n_bins (dc_reinhart d))) rows).
  { apply Forall_forall. intros row' Hin. apply In_nth_error in Hin as [k Hk]. apply (HPrim k row' Hk). }
  destruct (add_all_entries _ rows _ (row_new _) FR') as (c & A1 & A2 & A3). rewrite RA in A1. injection A1 as <-.
  destruct (A3 j Hj) as (x & ys & B1 & B2 & B3). rewrite mat_new_get in B1 by exact Hj. injection B1 as <-. rewrite Hv in B3. injection B3 as ->.
  change (nonneg (fold_left sadd ys BLACK)).
  assert (HY : Forall nonneg ys).
  { apply Forall_forall. intros y Hy. apply In_nth_error in Hy as [k Hk]. assert (Q : nth_error (map (fun c => mat_get c 0 j) rows) k = Some (Some y)) by (rewrite B2, nth_error_map, Hk; reflexivity).
    rewrite nth_error_map in Q. change (option_map (fun c => mat_get c 0 j) (@nth_error (@Contribution NumR) rows k) = Some (Some y)) in Q. destruct (nth_error rows k) as [row'|] eqn:Ek; cbn [option_map] in Q; [|discriminate Q]. injection Q as Q. destruct (HPrim k row' Ek) as [_ Z]. apply (Z j y Hj Q). }
  assert (H0 : nonneg BLACK) by (repeat split; cbn; lra). clear - HY H0. revert H0. generalize (@BLACK NumR). induction HY as [|y l Hy Hl IH]; intros a Ha; [exact Ha|]. cbn [fold_left]. apply IH.
  apply nonneg_add; assumption.
Qed.
Print Assumptions C50_nonnegative_partial.

(** and the calculation returns, when bounces off specular materials are counted and the depth limit fits the buffer *)
Theorem C50_returns_partial : forall (E : @Ext NumR) (RG : Gen NumR) (O : @Geo NumR) h s0, externals_ok E -> fair RG -> perpendicular_good O -> perpendicular_ok ->
  play scene_new h = Ret s0 -> manageable s0 -> all_triangles h -> Forall physical (sc_materials s0) ->
  exists s, made h s /\ forall (d : @DCFactory NumR) (rays : list RayR) seed seeds nest fuel, (2 * length (a_tri (sc_arrays s0)) <= fuel)%nat ->
    binned (dc_reinhart d) -> (forall g, fst (gen g) < dc_count_specular_bounce d) -> (dc_max_depth d <= 14)%nat -> (dc_max_depth d + 2 <= nest)%nat ->
    Forall (fun ray => unit (direction ray)) rays -> exists m, calc_dc nest fuel d rays s seed seeds = Ret m.
Proof.
  intros E RG O h s0 HE HF HPp HPo HP HM HT HPh. destruct (rebuilt (HE := HE) h s0 HP HM) as (s & HB & E1 & _ & _ & _ & _ & Ha & Hrec & _ & HQ).
  assert (HSam : samplable h). { intros f b p Hin. destruct (HT f b p Hin) as (t & ->). split; [intros c Q; discriminate|intros dd Q; discriminate]. }
  destruct (rebuilt_prepared (HE := HE) h s0 HP HM HPo HSam) as (s' & HB' & HPr). rewrite HB in HB'. injection HB' as <-.
  exists s. split; [exists s0; split; assumption|]. intros d rays seed seeds nest fuel Hfuel Hb Hcnt Hd Hn HU. destruct (HQ fuel Hfuel) as [HFi _].
  assert (HCt : forall g, @fltb NumR (fst (gen g)) (dc_count_specular_bounce d) = true) by (intros g; apply Rltb_is_true; apply Hcnt).
  assert (HPh' : Forall physical (sc_materials s)) by (rewrite E1; exact HPh).
  assert (HS : forall ray g sd, unit (direction ray) -> exists c, dc_sensor nest fuel d s ray g sd = Ret c).
  { intros ray g sd Ur. destruct (HPp _ Ur) as (e2 & GP & PT). pose proof (frame_of _ _ Ur PT) as FR. unfold dc_sensor. cbv zeta. rewrite GP. cbn [ret_opt obind].
    assert (HRows : forall N g k, exists rows, map_out (fun k l => dc_primary nest fuel d s (primary_ray (vcross e2 (direction ray)) e2 (direction ray) (origin ray) l) (sd k)) k (draw_directions N g) = Ret rows /\
       Forall (row_shaped (n_bins (dc_reinhart d))) rows).
    { induction N as [|N IH]; intros g0 k; cbn [draw_directions map_out]; [exists []; split; [reflexivity|constructor]|].
      pose proof (HF g0) as D1. destruct (gen g0) as [x1 g1], (gen g1) as [x2 g2]. cbn [fst] in D1. cbn [map_out].
      set (r := primary_ray _ _ _ _ _). assert (SR : sound_ray r).
      { destruct (C52_cosine_hemisphere x1 x2 _ _ _ D1 FR) as (_ & A & _). split; [exact A|]. split; [cbn; lra|]. apply nonneg_gray. pose proof PI_RGT_0. change (0 <= PI). lra. }
      destruct (dc_trace_returns HF s fuel HFi Ha h Hrec HT HPh' d (HPr fuel Hfuel) Hb HCt Hd nest 0%nat ltac:(lia) ltac:(lia) r (mat_new BLACK 1 (n_bins (dc_reinhart d))) helper_default (sd k) SR (row_new _) eq_refl ltac:(lia))
        as (r' & c' & a' & g' & TR & _ & SH & _).
      unfold dc_primary at 1. rewrite TR. cbn [obind]. destruct (IH g2 (S k)) as (rows & -> & Hrows). cbn [obind]. exists (c' :: rows). split; [reflexivity|]. constructor; assumption. }
    destruct (HRows (dc_n_ambient_samples d) g 0%nat) as (rows & -> & Hrows). cbn [obind]. destruct (add_all_entries _ rows _ (row_new _) Hrows) as (c & A1 & _). eauto. }
  assert (HMo : forall l k, Forall (fun ray => unit (direction ray)) l -> exists dcs, map_out (fun i ray => dc_sensor nest fuel d s ray (seed i) (seeds i)) k l = Ret dcs).
  { induction l as [|x l IH]; intros k HFo; cbn [map_out]; [eauto|]. inversion_clear HFo as [|? ? H1 H2]. destruct (HS x (seed k) (seeds k) H1) as (c & ->). cbn [obind].
    destruct (IH (S k) H2) as (dcs & ->). cbn [obind]. eauto. }
  destruct (HMo rays 0%nat HU) as (dcs & HD). destruct (calc_dc_spec nest fuel d rays s seed seeds) as [K1 _]. destruct (K1 dcs HD) as (m & G1 & _). eauto.
Qed.
Print Assumptions C50_returns_partial.
