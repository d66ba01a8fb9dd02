(** * DaylightLone: daylight coefficients of one matte triangle under the open sky (real arithmetic) *)
From Coq Require Import Permutation.
From Verif Require Import NumR Geometry Triangle Sphere Colour ColourMatrix SpecMatrix MatrixProofs Ray Bvh BvhProofs Material Scene Samplers Primitives RayTracer Daylight DaylightProofs DaylightReal
  TracerProofs TracerSafe TracerScenes TracerLone SpecColour SpecGeom SpecBvh SpecScene TriangleProofs BvhReal BvhQuery SceneProofs SpecOptics MaterialProofs
  P_Triangle P_Frame P_Bvh P_Material P_Tracer P_Samplers P_Daylight.
Open Scope R_scope.

(** a ray leaving a point of the triangle, moved off the surface, away from it, does not meet it again *)
Lemma leaves (t : TriR) ray info d' (r3 : RayTR) d4 : triangle_intersect t ray = Some info -> touches ray t d' ->
  start_of r3 = plus (along ray d') (times (1 / 100000) (i_normal info)) -> 0 < dot (dir_of r3) (i_normal info) -> ~ touches (r_geometry r3) t d4.
Proof.
  intros X5 X2 V2 V1 (_ & Y2 & u & v' & Y3 & _). destruct X2 as (_ & _ & u0 & v0 & X2 & _). rewrite X2 in V2.
  destruct (C11_hit_normal _ _ _ X5) as (Un & _ & O1 & O2 & _). set (n := i_normal info) in *. clearbody n.
  assert (K1 : dot n (minus (along (r_geometry r3) d4) (bary t u v')) = 0).
  { rewrite Y3. destruct (bary t u v'), n. vunf. ring. }
  assert (K2 : dot n (minus (bary t u0 v0) (bary t u v')) = 0).
  { replace (dot n _) with ((u0 - u) * dot n (minus (tb t) (ta t)) + (v0 - v') * dot n (minus (tc t) (ta t))); [rewrite O1, O2; ring|].
    unfold bary. destruct n, (ta t), (tb t), (tc t). vunf. ring. }
  unfold along in K1. unfold start_of, dir_of in *. rewrite V2 in K1. unfold unit in Un.
  assert (K3 : dot n (minus (plus (plus (bary t u0 v0) (times (1 / 100000) n)) (times d4 (direction (r_geometry r3)))) (bary t u v')) =
               dot n (minus (bary t u0 v0) (bary t u v')) + 1 / 100000 * dot n n + d4 * dot (direction (r_geometry r3)) n).
  { generalize (bary t u0 v0) (bary t u v') (direction (r_geometry r3)). intros [a1 a2 a3] [b1 b2 b3] [c1 c2 c3]. destruct n. vunf. ring. }
  rewrite K3, K2, Un in K1. nra.
Qed.

Lemma total_change (f g : nat -> R) b (x : R) : forall L, NoDup L -> In b L -> (forall j, In j L -> f j = if Nat.eqb j b then g j + x else g j) ->
  total (map f L) = total (map g L) + x.
Proof.
  induction L as [|a L IH]; intros ND HI HF; [destruct HI|]. inversion_clear ND as [|? ? N1 N2]. cbn [map total].
  destruct (Nat.eq_dec a b) as [->|Hab].
  - rewrite (HF b (or_introl eq_refl)), Nat.eqb_refl. replace (map f L) with (map g L); [ring|]. apply map_ext_in. intros j Hj.
    rewrite (HF j (or_intror Hj)). destruct (Nat.eqb_spec j b) as [->|]; [contradiction|reflexivity].
  - rewrite (HF a (or_introl eq_refl)). apply Nat.eqb_neq in Hab. rewrite Hab. rewrite IH; [ring|exact N2| |].
    + destruct HI as [->|HI]; [rewrite Nat.eqb_refl in Hab; discriminate|exact HI].
    + intros j Hj. apply HF. right. exact Hj.
Qed.
Definition linear (ch : @Spectrum NumR -> R) : Prop := ch = sr (N := NumR) \/ ch = sg (N := NumR) \/ ch = sb (N := NumR).
Lemma reach_total (ch : @Spectrum NumR -> R) (d : @DCFactory NumR) (r : RayTR) c c' : linear ch -> row_shaped (m_cols c) c -> reach_sky d r c = Ret c' ->
  row_total ch c' 0 = row_total ch c 0 + ch (r_colour r) / INR (dc_n_ambient_samples d).
Proof.
  intros HC HR HS. destruct (reach_sky_step d r c c' HS HR) as ((_ & _ & R1) & R2 & R3). unfold row_total. rewrite R1.
  apply total_change with (b := dir_to_bin (dc_reinhart d) (direction (r_geometry r))); [apply seq_NoDup|apply in_seq; lia|].
  intros j Hj. apply in_seq in Hj. destruct (R3 j ltac:(lia)) as (old & G1 & G2). unfold entry. rewrite G1, G2. destruct (Nat.eqb _ _); [|reflexivity].
  assert (QN : @fofZ NumR (Z.of_nat (dc_n_ambient_samples d)) = INR (dc_n_ambient_samples d)) by (rewrite INR_IZR_INZ; reflexivity). rewrite QN.
  assert (L1 : forall a b, ch (sadd a b) = ch a + ch b) by (destruct HC as [-> | [-> | ->]]; reflexivity).
  assert (L2 : forall a (k : R), ch (sdivf a k) = ch a / k) by (destruct HC as [-> | [-> | ->]]; reflexivity).
  assert (L3 : forall a b, ch (smul a b) = ch a * ch b) by (destruct HC as [-> | [-> | ->]]; reflexivity).
  assert (L4 : ch ONE = 1/1) by (destruct HC as [-> | [-> | ->]]; reflexivity).
  rewrite L1, L2, L3, L4. unfold Rdiv. rewrite Rinv_1. ring.
Qed.

(** x + x^2 + ... + x^n *)
Fixpoint powers (x : R) (n : nat) : R := match n with 0%nat => 0 | S n => x * (1 + powers x n) end.

Section Lone.
  Context {E : @Ext NumR} {HE : externals_ok E} {RG : Gen NumR} {O : @Geo NumR}.
  Hypothesis Hfair : fair RG.
  Variables (t : TriR) (m : @Material NumR) (colour : @Spectrum NumR) (ro : R) (s : @Scene NumR) (fuel : nat) (d : @DCFactory NumR).
  Hypothesis Hmat : m = Plastic colour (0 : R) ro \/ m = Metal colour (0 : R) ro.
  Hypothesis Hmats : sc_materials s = [m].
  Hypothesis Htri : a_tri (sc_arrays s) = [t].
  Hypothesis Hfront : a_front (sc_arrays s) = [0%nat].
  Hypothesis Hback : a_back (sc_arrays s) = [0%nat].
  Hypothesis Hnorm : a_norm (sc_arrays s) = [(plane_normal t, plane_normal t, plane_normal t)].
  Hypothesis Hfind : forall r aux, finds s fuel r aux.
  Hypothesis Hbins : binned (dc_reinhart d).
  Hypothesis Hdepth : (0 < dc_max_depth d)%nat.
  Hypothesis Hn : (0 < dc_n_ambient_samples d)%nat.
  Notation n := (INR (dc_n_ambient_samples d)).
  Variable ch : @Spectrum NumR -> R.
  Hypothesis Hch : linear ch.

  Lemma escape nest (r : RayTR) c aux g : (0 < nest)%nat -> unit (dir_of r) -> (forall k, ~ touches (r_geometry r) t k) -> row_shaped (n_bins (dc_reinhart d)) c ->
    exists c' aux', dc_trace nest fuel d s r c aux g = Ret (r, c', aux', g) /\ row_shaped (n_bins (dc_reinhart d)) c' /\ h_rays aux' = h_rays aux /\
      row_total ch c' 0 = row_total ch c 0 + ch (r_colour r) / n.
  Proof.
    intros H0 U HT HR. destruct nest as [|nest]; [lia|]. cbn [dc_trace].
    destruct (Hfind r (h_nodes aux)) as [(j & t' & k & x & nd & _ & X1 & X2 & _)|(nd & CR & _)].
    { exfalso. rewrite Htri in X1. destruct j as [|[|j]]; try discriminate. injection X1 as <-. apply (HT k X2). }
    rewrite CR. cbn [obind]. cbv zeta. pose proof HR as (S1 & R1 & C1). pose proof (Hbins (dir_of r) U) as HB.
    assert (RS : exists c', reach_sky d r c = Ret c').
    { unfold reach_sky. cbv zeta. fold (dir_of r). destruct (mat_get_some c 0 (dir_to_bin (dc_reinhart d) (dir_of r)) S1) as [v ->]; [lia|lia|]. cbn [ret_opt obind].
      match goal with |- context [mat_set c 0 ?b ?x] => destruct (mat_set_some c 0 b x S1) as (m' & -> & _) end; [lia|lia|]. cbn [ret_opt]. eauto. }
    destruct RS as (c' & RS). rewrite RS. cbn [obind]. rewrite <- C1 in HR.
    do 2 eexists. split; [reflexivity|]. split; [rewrite <- C1; apply (reach_sky_step _ _ _ _ RS HR)|]. split; [reflexivity|]. apply reach_total; assumption.
  Qed.

  Lemma lone_ambient nest ray info d' : (0 < nest)%nat -> triangle_intersect t ray = Some info -> touches ray t d' ->
    forall N (r : RayTR) c aux g, row_shaped (n_bins (dc_reinhart d)) c ->
    exists r' c' aux' g', dc_ambient (dc_trace nest fuel d s) fuel m (along ray d') (i_normal info) (i_dpdu info) (i_dpdv info) N r c aux g = Ret (r', c', aux', g') /\
      row_shaped (n_bins (dc_reinhart d)) c' /\ row_total ch c' 0 = row_total ch c 0 + ch (r_colour r) * powers (ch colour) N / n.
  Proof.
    intros H0 X5 X2. pose proof (proj1 (C11_hit_frame _ _ _ X5)) as FR.
    induction N as [|N IH]; intros r c aux g HR; cbn [dc_ambient].
    - exists r, c, aux, g. split; [reflexivity|]. split; [exact HR|]. cbn [powers]. unfold Rdiv. ring.
    - assert (HSc : TracerSafe.scatters m) by (destruct Hmat as [-> | ->]; [left|right]; do 3 eexists; reflexivity).
      destruct (diffuse_draw m HSc colour ro Hmat Hfair (i_normal info) (i_dpdu info) (i_dpdv info) (along ray d') r fuel g FR) as (v & w & r1 & g1 & SB & _). rewrite SB. cbn [obind]. cbv zeta.
      destruct (sample_bsdf_keeps _ _ _ _ _ _ _ _ _ _ _ _ SB) as (_ & _ & _ & _ & K3 & _).
      destruct (diffuse_sample Hfair m colour 0 ro _ _ _ _ r r1 fuel g v w g1 Hmat eq_refl FR SB) as (V1 & V2 & V3 & V4 & V5).
      set (r2 := set_depth _ _).
      assert (C2 : ch (r_colour r2) = ch (r_colour r) * ch colour).
      { cbn [r2 r_colour set_depth set_colour]. rewrite K3, V1, V4.
        assert (L2 : forall a (k : R), ch (sdivf a k) = ch a / k) by (destruct Hch as [-> | [-> | ->]]; reflexivity).
        assert (L3 : forall a b, ch (smul a b) = ch a * ch b) by (destruct Hch as [-> | [-> | ->]]; reflexivity).
        assert (L4 : forall a (k : R), ch (smulf a k) = ch a * k) by (destruct Hch as [-> | [-> | ->]]; reflexivity).
        rewrite L3, L2, L4, L4. change (@fabs NumR (vdot (i_normal info) (direction (r_geometry r1)))) with (Rabs (dot (i_normal info) (dir_of r1))).
        rewrite dot_comm, Rabs_pos_eq by lra. generalize dependent (dot (dir_of r1) (i_normal info)). intros q Hq _. pose proof PI_RGT_0 as HPI. field. split; lra. }
      destruct (escape nest r2 c aux g1 H0) as (c' & aux' & TR & HR' & _ & RT); [exact V2| |exact HR|].
      { intros k. apply (leaves t ray info d' r2 k X5 X2); [exact V5|exact V3]. }
      rewrite TR. cbn [obind]. destruct (IH r2 c' aux' g1 HR') as (r4 & c4 & a4 & g4 & TR4 & HR4 & RT4).
      exists r4, c4, a4, g4. split; [exact TR4|]. split; [exact HR4|]. rewrite RT4, RT, C2. cbn [powers].
      assert (0 < n) by (apply lt_0_INR; exact Hn). field. lra.
  Qed.

  Lemma lone_primary nest (r : RayTR) g : (1 < nest)%nat -> r_depth r = 0%nat -> unit (dir_of r) -> (exists k, crosses (r_geometry r) t k /\ in_sight (r_geometry r) k) ->
    exists c, dc_primary nest fuel d s r g = Ret c /\ row_shaped (n_bins (dc_reinhart d)) c /\
      row_total ch c 0 = ch (r_colour r) * powers (ch colour) (dc_n_ambient_samples d) / n.
  Proof.
    intros H1 HD U (k & HC & HI). destruct nest as [|nest]; [lia|]. unfold dc_primary. cbn [dc_trace].
    destruct (Hfind r (h_nodes helper_default)) as [(j & t' & d' & x & nd & CR & X1 & X2 & X3 & X4 & X5 & X6 & _)|(nd & _ & Hno)].
    2:{ exfalso. apply (Hno t k); [rewrite Htri; left; reflexivity|split; assumption]. }
    rewrite Htri in X1. destruct j as [|j]; [|destruct j; discriminate]. injection X1 as <-.
    rewrite CR. cbn [obind]. cbv zeta. rewrite Nat2Z.id. change (r_depth (set_interaction r x)) with (r_depth r). rewrite HD.
    replace (Nat.ltb (dc_max_depth d) 0) with false by (symmetry; apply Nat.ltb_ge; lia).
    destruct (hit_normal_oriented _ _ _ X5) as [ON NS]. pose proof (hit_nondegenerate _ _ _ X5) as ND.
    assert (HMt : hit_material s (set_interaction r x) 0 = Ret (Some m)).
    { unfold hit_material. cbn [r_interaction set_interaction]. rewrite Hfront, Hback, Hmats. cbn [nth_error ret_opt obind]. destruct (i_side (x_shading x)); [reflexivity|reflexivity|contradiction]. }
    rewrite HMt. cbn [obind orb].
    assert (EM : emits_direct_light m = false /\ specular_only m = false) by (destruct Hmat as [-> | ->]; split; reflexivity). destruct EM as [EM SP]. rewrite EM, SP.
    unfold get_triad at 1. rewrite Hnorm. cbn [nth_error ret_opt obind]. change (r_interaction (set_interaction r x)) with x. set (r2 := set_shading _ _).
    assert (RN : i_normal (x_shading (r_interaction r2)) = i_normal (x_shading x)).
    { change (i_normal (interpolate_normal (x_shading x) (plane_normal t, plane_normal t, plane_normal t)) = i_normal (x_shading x)).
      rewrite interpolate_constant by (apply normalized_unit; exact ND). rewrite ON. reflexivity. }
    unfold draw_n_ambient_samples, get_n_ambient_samples. change (r_depth r2) with (r_depth r). rewrite HD. cbn [dc_tracer max_depth n_ambient_samples].
    replace (Nat.eqb (dc_max_depth d) 0) with false by (symmetry; apply Nat.eqb_neq; lia).
    replace (Nat.eqb (dc_n_ambient_samples d) 0) with false by (symmetry; apply Nat.eqb_neq; lia). cbn [orb Nat.eqb].
    unfold store_ray. change (r_depth r2) with (r_depth r). rewrite HD. cbn [h_rays helper_default]. 
    match goal with |- context [Nat.ltb 0 ?l] => replace (Nat.ltb 0 l) with true by reflexivity end. cbn [obind]. unfold get_triad. rewrite RN.
    rewrite (X6 U).
    match goal with |- context [dc_ambient ?tr fuel m ?p ?n0 ?e1 ?e2 ?N r2 ?c ?a g] => destruct (lone_ambient nest (r_geometry r) (x_shading x) d' ltac:(lia) X5 X2 N r2 c a g (row_new _)) as (r4 & c4 & a4 & g4 & TR4 & HR4 & RT4) end.
    change (i_dpdu (x_shading (r_interaction r2))) with (i_dpdu (x_shading x)). change (i_dpdv (x_shading (r_interaction r2))) with (i_dpdv (x_shading x)).
    rewrite TR4. cbn [obind]. exists c4. split; [reflexivity|]. split; [exact HR4|]. rewrite RT4. change (r_colour r2) with (r_colour r).
    replace (row_total ch (mat_new BLACK 1 (n_bins (dc_reinhart d))) 0) with 0; [ring|].
    unfold row_total. cbn [m_cols mat_new].
    assert (Z : forall L, (forall j, In j L -> (j < n_bins (dc_reinhart d))%nat) -> total (map (fun j => ch (entry (mat_new BLACK 1 (n_bins (dc_reinhart d))) 0 j)) L) = 0).
    { induction L as [|a L IH]; intros HL; [reflexivity|]. cbn [map total]. rewrite IH by (intros; apply HL; right; assumption). unfold entry. rewrite mat_new_get by (apply HL; left; reflexivity).
      replace (ch BLACK) with 0; [ring|]. destruct Hch as [-> | [-> | ->]]; cbn; lra. }
    symmetry. apply Z. intros j Hj. apply in_seq in Hj. lia.
  Qed.
End Lone.
