(** * Properties C93, C94: convex bodies do not shade themselves, and surfaces are not lit through themselves (exact arithmetic) *)
From Coq Require Import Permutation.
From Verif Require Import NumR Geometry Triangle Sphere Colour Ray Bvh BvhProofs Material Scene Samplers Primitives RayTracer Camera Render
  TracerProofs TracerSafe TracerScenes TracerLone TracerAux SpecColour SpecGeom SpecBvh SpecScene TriangleProofs BvhReal BvhQuery SceneProofs SpecOptics MaterialProofs
  P_Triangle P_Frame P_Bvh P_Material P_Tracer P_Camera SpecTracer SpecDraws P_Draws DaylightReal P_Render ColourProofs TracerCorridor BvhExamples P_Samplers P_Radiant
  P_Sunlight P_Lights P_Order P_Exact.
From Verif Require P_Glossy.
Open Scope R_scope.

(** ** C93
    The triangle lies behind the plane through p with normal n (and not farther behind than a million kilometres, so that the
    tolerance of the intersection test, 2^-52 on barycentric coordinates, stays below the distance by which rays are moved off a surface) *)
Definition behind (p n : VecR) (t : TriR) : Prop := forall v, In v [ta t; tb t; tc t] -> - 10 ^ 9 <= dot n (minus v p) <= 0.

Lemma behind_untouched (t : TriR) (p n dir : VecR) (off s : R) : unit n -> 1 / 100000 <= off -> 0 <= dot n dir -> behind p n t ->
  ~ touches (mkRay3D (plus p (times off n)) dir) t s.
Proof.
  intros U HO HD HB (_ & Hs & u & v & HP & [U1 U2] & V1 & UV).
  pose proof (HB (ta t) (or_introl eq_refl)) as Ba. pose proof (HB (tb t) (or_intror (or_introl eq_refl))) as Bb. pose proof (HB (tc t) (or_intror (or_intror (or_introl eq_refl)))) as Bc.
  assert (K : dot n (minus (bary t u v) p) = (1 - u - v) * dot n (minus (ta t) p) + u * dot n (minus (tb t) p) + v * dot n (minus (tc t) p)).
  { unfold bary. clear. destruct t as [a b c]. cbn [ta tb tc]. dvec. vunf. ring. }
  rewrite <- HP in K. unfold along in K. cbn [origin direction] in K.
  replace (dot n (minus (plus (plus p (times off n)) (times s dir)) p)) with (off * dot n n + s * dot n dir) in K by (clear; dvec; vunf; ring).
  unfold unit in U. rewrite U in K.
  assert (E : 0 < epsilon <= 1 / 10 ^ 15).
  { unfold epsilon. split; [apply Rinv_0_lt_compat, pow_lt; lra|]. unfold Rdiv. rewrite Rmult_1_l. apply Rinv_le_contravar; [apply pow_lt; lra|].
    change (10 ^ 15) with (IZR 10 ^ 15). change (2 ^ 52) with (IZR 2 ^ 52). rewrite !pow_IZR. apply IZR_le. vm_compute. discriminate. }
  set (a := dot n (minus (ta t) p)) in *. set (b := dot n (minus (tb t) p)) in *. set (c := dot n (minus (tc t) p)) in *. set (e := epsilon) in *. clearbody a b c e.
  assert (Hsd : 0 <= s * dot n dir) by (apply Rmult_le_pos; lra).
  assert (X : (1 - u - v) * a <= e * 10 ^ 9) by nra. assert (Y : u * b <= e * 10 ^ 9) by nra. assert (Z : v * c <= e * 10 ^ 9) by nra.
  assert (W : e * 10 ^ 9 <= 1 / 10 ^ 6) by lra. lra.
Qed.

(** seen from just above a plane behind which everything lies, nothing is in the way on the upper side *)
Theorem C93_nothing_above : forall E, externals_ok E -> forall h s, play scene_new h = Ret s -> sized (pushed h) ->
  exists s', rebuild_accelerator s = Ret s' /\
  forall p n off dir fuel, unit n -> 1 / 100000 <= off -> 0 <= dot n dir -> (forall rc, In rc (pushed h) -> behind p n (shape rc)) -> (2 * length (pushed h) <= fuel)%nat ->
    (forall (r : @Ray NumR) aux, r_geometry r = mkRay3D (plus p (times off n)) dir -> exists aux', cast_ray fuel s' r aux = Ret (None, r, aux')) /\
    (forall d2 aux, exists aux', scene_unobstructed_distance fuel s' (mkRay3D (plus p (times off n)) dir) d2 aux = Ret (true, aux')).
Proof.
  intros E HE h s H HZ. destruct (C86_rebuild E HE h s H HZ) as (s' & HB & _ & HC & HS). exists s'. split; [exact HB|].
  intros p n off dir fuel U HO HD HBh Hf. split.
  - intros r aux HR. destruct (HC fuel r aux Hf) as [(j & rc & d & x & aux' & _ & _ & Hin & HT & _)|(aux' & Q & _)]; [|eauto].
    rewrite HR in HT. exfalso. exact (behind_untouched _ _ _ _ _ _ U HO HD (HBh rc Hin) HT).
  - intros d2 aux. destruct (HS fuel (mkRay3D (plus p (times off n)) dir) d2 aux Hf) as (cl & aux' & Q & _ & K). destruct cl; [eauto|].
    destruct (K eq_refl) as (rc & d & Hin & HT & _). exfalso. exact (behind_untouched _ _ _ _ _ _ U HO HD (HBh rc Hin) HT).
Qed.
Print Assumptions C93_nothing_above.

(** a cap of half-angle alpha whose axis stands at least alpha above the horizon lies above the horizon *)
Lemma above_horizon (n a d : VecR) (alpha : R) : unit n -> unit a -> unit d -> 0 < alpha < PI / 2 -> cos alpha <= dot d a -> sin alpha <= dot n a -> 0 <= dot n d.
Proof.
  intros Un Ua Ud HA Hc Hs.
  set (w := minus d (times (dot d a) a)). set (z := minus n (times (dot n a) a)).
  pose proof (P_Glossy.schwarz z w) as K.
  assert (W : dot w w = 1 - dot d a * dot d a). { unfold w. unfold unit in *. replace (dot (minus d (times (dot d a) a)) (minus d (times (dot d a) a))) with (dot d d - 2 * (dot d a * dot d a) + dot d a * dot d a * dot a a) by (clear; dvec; vunf; ring). rewrite Ud, Ua. ring. }
  assert (Z : dot z z = 1 - dot n a * dot n a). { unfold z. unfold unit in *. replace (dot (minus n (times (dot n a) a)) (minus n (times (dot n a) a))) with (dot n n - 2 * (dot n a * dot n a) + dot n a * dot n a * dot a a) by (clear; dvec; vunf; ring). rewrite Un, Ua. ring. }
  assert (D : dot n d = dot n a * dot d a + dot z w). { unfold z, w. unfold unit in *. replace (dot (minus n (times (dot n a) a)) (minus d (times (dot d a) a))) with (dot n d - 2 * (dot n a * dot d a) + dot n a * dot d a * dot a a) by (clear; dvec; vunf; ring). rewrite Ua. ring. }
  rewrite D. rewrite W, Z in K. pose proof (sin2_cos2 alpha) as SC. unfold Rsqr in SC.
  assert (0 < cos alpha) by (apply cos_gt_0; lra). assert (0 < sin alpha) by (apply sin_gt_0; lra).
  set (q := dot z w) in *. set (x := dot n a) in *. set (y := dot d a) in *. set (C := cos alpha) in *. set (S' := sin alpha) in *. clearbody q x y C S'. clear - K SC Hc Hs H H0.
  assert (X : 1 - x * x <= y * y) by nra. assert (Y : 1 - y * y <= x * x) by nra.
  assert (Q : q * q <= (x * y) * (x * y)).
  { eapply Rle_trans; [exact K|]. replace ((1 - x * x) * (1 - y * y)) with (1 - x * x - y * y + x * y * (x * y)) by ring. lra. }
  assert (0 < x * y) by nra. nra.
Qed.

(** the sun on a convex body: the cosine law, wherever the whole disc of the sun stands above the tangent plane *)
Theorem C93_convex_in_the_sun : forall (E : @Ext NumR) (RG : Gen NumR) (GO : @Geo NumR) h s0 (d : @DistantSource3D NumR) f b (L : SpecR),
  externals_ok E -> fair RG -> good_perpendiculars GO -> sees_sources GO ->
  play scene_new h = Ret s0 -> manageable s0 -> flat_or_distant h ->
  sc_lights s0 = [] -> sc_distant_lights s0 = [mkObject (PSource d) f b] -> 0 < ds_angle d < PI -> ds_direction d <> pt 0 0 0 ->
  nth_error (sc_materials s0) f = Some (Light L) -> nth_error (sc_materials s0) b = Some (Light L) ->
  exists s, made h s /\ forall (c : @Tracer NumR) r aux g nest fuel i r1 (rho : SpecR) (ro : R), (2 * length (a_tri (sc_arrays s0)) <= fuel)%nat ->
    (0 < n_shadow_samples c <= fuel)%nat -> (0 < nest)%nat -> unit (dir_of r) -> (r_depth r <= max_depth c)%nat -> (n_ambient_samples c = 0 \/ max_depth c = 0)%nat ->
    meets fuel s r i r1 -> facing s r1 i (Plastic rho (0 : R) ro) \/ facing s r1 i (Metal rho (0 : R) ro) ->
    (forall rc, In rc (pushed h) -> behind (point_of r1) (normal_of r1) (shape rc)) ->
    sin (ds_angle d / 2) <= dot (normal_of r1) (axis_of d) ->
    exists li pdf r' aux' g' (k : R), trace_ray nest fuel c s r aux g = Ret (li, pdf, r', aux', g') /\
      sr li = sr rho * sr L * (solid_angle d * k) / PI /\ sg li = sg rho * sg L * (solid_angle d * k) / PI /\ sb li = sb rho * sb L * (solid_angle d * k) / PI /\
      Rabs (k - Rabs (dot (normal_of r1) (axis_of d))) <= sqrt (2 * (1 - half_cosine d)).
Proof.
  intros E RG GO h s0 d f b L HE HF HPp HSo HP HM HFl HL0 HL1 HA HD Hf Hb.
  destruct (C73_sunlight E RG GO h s0 d f b L HE HF HPp HSo HP HM HFl HL0 HL1 HA HD Hf Hb) as (s & HMd & HS). exists s. split; [exact HMd|].
  pose proof HMd as (s0' & HP' & HB'). rewrite HP in HP'. injection HP' as <-.
  destruct (rebuilt (HE := HE) h s0 HP HM) as (s' & HB & _ & _ & _ & _ & _ & Ha & Hrec & _ & HQ). rewrite HB in HB'. injection HB' as ->.
  intros c r aux g nest fuel i r1 rho ro H1 H2 H3 H4 H5 H6 H7 H8 HBh Hsun. apply (HS c r aux g nest fuel i r1 rho ro); try assumption.
  intros dir t k Udir Hdir Hin.
  assert (Un : unit (normal_of r1)).
  { destruct H7 as (z & ax & ax' & CR & _). destruct (HQ fuel H1) as [HFi _]. destruct (HFi r ax) as [(j & t' & dd & x & nd & CR' & X1 & X2 & X3 & X4 & X5 & _)|(nd & CR' & _)]; rewrite CR' in CR; [|discriminate CR].
    injection CR as _ <- _. destruct (C11_hit_normal _ _ _ X5) as (Un & _). exact Un. }
  apply In_nth_error in Hin as [j Hj]. destruct (record_at (sc_arrays s) j t Ha Hj) as (fm & bm & nn & _ & _ & _ & Hin).
  eapply Permutation_in in Hin; [|exact Hrec]. specialize (HBh _ Hin). unfold shape in HBh. cbn [fst] in HBh.
  apply (behind_untouched t _ _ _ (1 / 1000)); [exact Un|lra| |exact HBh].
  apply (above_horizon _ (axis_of d) _ (ds_angle d / 2)); [exact Un|apply normalized_unit; exact HD|exact Udir|lra|exact Hdir|exact Hsun].
Qed.
Print Assumptions C93_convex_in_the_sun.
(** a floor with a wall going down from its edge, under the sun at the zenith *)
Definition cliff : TriR := mkTri (pt 0 0 0) (pt 1 0 0) (pt 0 0 (-1)).
Definition sunny_cliff : list (@op NumR) :=
  [AddMaterial (Plastic (gray (1/2 : R)) (0 : R) (0 : R)); AddMaterial (Light (gray (1000 : R))); AddObject 0 0 (PTriangle (plate 0)); AddObject 0 0 (PTriangle cliff); AddObject 1 1 (PSource zenith_sun)].
Lemma cliff_plays : exists s0, play (E := ext_example) scene_new sunny_cliff = Ret s0 /\ manageable s0 /\ length (a_tri (sc_arrays s0)) = 2%nat /\
  sc_materials s0 = [Plastic (gray (1/2 : R)) (0 : R) (0 : R); Light (gray (1000 : R))] /\ sc_lights s0 = [] /\ sc_distant_lights s0 = [mkObject (PSource zenith_sun) 1 1].
Proof.
  unfold sunny_cliff. cbn [play step push_material fst obind]. unfold push_object. cbn. eexists. split; [reflexivity|].
  split; [split; [cbn; lia|apply uncrowded_few; cbn; lia]|]. repeat split.
Qed.
Lemma cliff_behind rc : In rc (pushed sunny_cliff) -> (shape rc = plate 0 \/ shape rc = cliff) /\ forall x y, behind (pt x y 0) (pt 0 0 1) (shape rc).
Proof.
  intros H. unfold pushed, sunny_cliff in H. cbn in H.
  assert (K : shape rc = plate 0 \/ shape rc = cliff) by (destruct H as [<-|[<-|[]]]; [left|right]; reflexivity). split; [exact K|].
  intros x y v Hv. destruct K as [K|K]; rewrite K in Hv; unfold plate, cliff in Hv; cbn [ta tb tc] in Hv; repeat destruct Hv as [<-|Hv]; try contradiction; vunf; cbn [vx vy vz pt]; lra.
Qed.
Example C93_hyp : exists s0, play (E := ext_example) scene_new sunny_cliff = Ret s0 /\ manageable s0 /\ sized (pushed sunny_cliff) /\ flat_or_distant sunny_cliff /\
  0 < @ds_angle NumR zenith_sun < PI /\ exists s, made (E := ext_example) sunny_cliff s /\ exists r i r1, meets (E := ext_example) 4 s r i r1 /\ unit (dir_of r) /\
    facing s r1 i (Plastic (gray (1/2 : R)) (0 : R) (0 : R)) /\ (forall rc, In rc (pushed sunny_cliff) -> behind (point_of r1) (normal_of r1) (shape rc)) /\
    sin (@ds_angle NumR zenith_sun / 2) <= dot (normal_of r1) (axis_of zenith_sun).
Proof.
  destruct cliff_plays as (s0 & HP & HM & Hlen & H1 & H2 & H3). exists s0. split; [exact HP|]. split; [exact HM|].
  split; [split; [cbn; lia|apply uncrowded_few; cbn; lia]|].
  split. { intros f b p H. repeat (destruct H as [H|H]; [try discriminate; injection H as <- <- <-; (left; eexists; reflexivity) || (right; eexists; reflexivity)|]). destruct H. }
  assert (HAn : 0 < @ds_angle NumR zenith_sun < PI) by (cbn [zenith_sun ds_angle]; pose proof PI2_3_2; lra). split; [exact HAn|].
  destruct (rebuilt (HE := ext_example_ok) _ s0 HP HM) as (s & HB & E1 & _ & _ & _ & _ & Ha & Hrec & Hl & HQ). exists s. split; [exists s0; split; assumption|].
  destruct (HQ 4%nat ltac:(lia)) as [HFi _].
  set (r := set_ray3d (@ray_default NumR) (pt (1/4) (1/4) 1) (pt 0 0 (-1))). assert (RG0 : r_geometry r = down (1/4) (1/4) 1) by reflexivity.
  assert (RT : forall j t', nth_error (a_tri (sc_arrays s)) j = Some t' -> exists nn, In (t', 0%nat, 0%nat, nn) (pushed sunny_cliff) /\ nth_error (a_front (sc_arrays s)) j = Some 0%nat /\ nth_error (a_back (sc_arrays s)) j = Some 0%nat).
  { intros j t' Hj. destruct (record_at (sc_arrays s) j t' Ha Hj) as (f & b & nn & RF & RB & _ & Hin). eapply Permutation_in in Hin; [|exact Hrec]. fold (pushed sunny_cliff) in Hin.
    assert (f = 0%nat /\ b = 0%nat) as [-> ->]. { unfold pushed, sunny_cliff in Hin. cbn in Hin. destruct Hin as [Q|[Q|[]]]; injection Q; intros; subst; split; reflexivity. } eauto. }
  assert (TIn : In (plate 0) (a_tri (sc_arrays s))).
  { assert (K : In (plate 0) (map shape (records (sc_arrays s)))). { eapply Permutation_in; [apply Permutation_map, Permutation_sym, Hrec|]. left. reflexivity. }
    rewrite (map_records_tri _ Ha : map shape (records (sc_arrays s)) = _) in K. exact K. }
  destruct C47_never_returns_hyp as (_ & Ud & HC & HI).
  destruct (HFi r []) as [(j & t & dd & x & nd & CR & X1 & X2 & X3 & X4 & X5 & X6 & _)|(nd & _ & Hno)].
  2:{ exfalso. apply (Hno (plate 0) 1 TIn). rewrite RG0. split; [exact HC|exact HI]. }
  destruct (RT j t X1) as (nn & Hin & RF & RB). destruct (cliff_behind _ Hin) as [K _]. unfold shape in K. cbn [fst] in K.
  assert (t = plate 0). { destruct K as [K|K]; [exact K|]. exfalso. subst t. destruct X2 as (V & _). rewrite RG0 in V. unfold volume, cliff, down in V. revert V. vunf. cbn [ta tb tc vx vy vz direction pt]. intros V. rewrite Rabs_pos_eq in V; lra. }
  subst t. destruct (hit_normal_oriented _ _ _ X5) as [ON NS]. destruct (C11_hit_normal _ _ _ X5) as (Un & Dn & O1 & O2 & _).
  assert (N1 : i_normal (x_shading x) = pt 0 0 1).
  { rewrite RG0 in Dn. clear - Un Dn O1 O2. destruct (i_normal (x_shading x)) as [p q w]. unfold unit, plate, down in *. vunf. cbn [ta tb tc vx vy vz direction] in *.
    assert (Qa : p = 0) by lra. assert (Qb : q = 0) by lra. subst. assert (0 < w) by lra. apply vec_ext; cbn [vx vy vz]; [reflexivity|reflexivity|nra]. }
  assert (XP : x_point x = along (r_geometry r) dd) by (apply X6; rewrite RG0; exact Ud).
  assert (AX : axis_of zenith_sun = pt 0 0 1) by (unfold axis_of, zenith_sun; cbn [ds_direction]; apply normalized_of_unit; unfold unit; vunf; ring).
  exists r, j, (set_interaction r x). split; [exists (Z.of_nat j), [], nd; split; [exact CR|rewrite Nat2Z.id; reflexivity]|]. split; [exact Ud|]. split; [|split].
  - exists 0%nat. rewrite E1, H1. split; [reflexivity|]. unfold side_hit. cbn [r_interaction set_interaction]. destruct (i_side (x_shading x)); [left|right|contradiction]; split; (reflexivity || assumption).
  - intros rc Hrc. unfold point_of, normal_of. cbn [r_interaction set_interaction]. rewrite N1, XP. destruct X2 as (_ & _ & u0 & v0 & X2 & _). rewrite X2.
    replace (bary (plate 0) u0 v0) with (pt u0 v0 0) by (unfold bary, plate; cbn [ta tb tc]; apply vec_ext; vunf; ring). apply (cliff_behind _ Hrc).
  - unfold normal_of. cbn [r_interaction set_interaction]. rewrite N1, AX. replace (dot (pt 0 0 1) (pt 0 0 1)) with 1 by (vunf; ring). apply SIN_bound.
Qed.

(** ** C94
    Shadow rays start a millimetre above the surface.  A light behind the surface is hidden by the surface itself when the shadow ray
    comes back through it, that is, when the point [back p n dir] is on it. *)
Definition back (p n dir : VecR) : VecR := plus (plus p (times (1 / 1000) n)) (times (1 / 1000 / - dot n dir) dir).
Definition hidden_by (t : TriR) (p n dir : VecR) (d2 : R) : Prop :=
  unit dir /\ -1 < dot n dir < 0 /\ on_triangle t (back p n dir) /\ 1 / 100000 <= Rabs (volume (mkRay3D p dir) t) /\ (1 / 1000 / dot n dir) ^ 2 + 1 / 5000 < d2.
Lemma hidden_crossed t p n dir d2 : hidden_by t p n dir d2 -> exists k, crosses (mkRay3D (plus p (times (1 / 1000) n)) dir) t k /\ in_the_way (mkRay3D (plus p (times (1 / 1000) n)) dir) d2 k.
Proof.
  intros (U & HD & HT & HV & HF). set (c := - dot n dir) in *. assert (HC : 0 < c < 1) by (unfold c; lra).
  assert (K : 1 / 1000 < 1 / 1000 / c). { apply Rmult_lt_reg_r with c; [lra|]. replace (1 / 1000 / c * c) with (1 / 1000) by (field; lra). nra. }
  replace ((1 / 1000 / dot n dir) ^ 2) with ((1 / 1000 / c) ^ 2) in HF by (unfold c; field; lra).
  exists (1 / 1000 / c). split.
  - split; [exact HT|]. split; [exact HV|lra].
  - assert (R2 : reach2 (mkRay3D (plus p (times (1 / 1000) n)) dir) (1 / 1000 / c) = (1 / 1000 / c) ^ 2).
    { unfold reach2, along, dist2. cbn [origin direction]. set (k := 1 / 1000 / c). unfold unit in U.
      replace (dot _ _) with (k ^ 2 * dot dir dir) by (clear; dvec; vunf; ring). rewrite U. ring. }
    unfold in_the_way. rewrite R2. set (k := 1 / 1000 / c) in *. clearbody k. split; [nra|]. split; [lra|]. rewrite Rabs_pos_eq; lra.
Qed.
Theorem C94_own_shadow : forall E, externals_ok E -> forall h s, play scene_new h = Ret s -> sized (pushed h) ->
  exists s', rebuild_accelerator s = Ret s' /\
  forall rc p n dir d2 fuel aux, In rc (pushed h) -> hidden_by (shape rc) p n dir d2 -> (2 * length (pushed h) <= fuel)%nat ->
    exists aux', scene_unobstructed_distance fuel s' (mkRay3D (plus p (times (1 / 1000) n)) dir) d2 aux = Ret (false, aux').
Proof.
  intros E HE h s H HZ. destruct (C86_rebuild E HE h s H HZ) as (s' & HB & _ & _ & HS). exists s'. split; [exact HB|].
  intros rc p n dir d2 fuel aux Hin HH Hf. destruct (HS fuel (mkRay3D (plus p (times (1 / 1000) n)) dir) d2 aux Hf) as (cl & aux' & Q & K & _).
  destruct (hidden_crossed _ _ _ _ _ HH) as (k & C1 & C2). rewrite K in Q; eauto.
Qed.
Print Assumptions C94_own_shadow.
(** the direct light of a surface all of whose lights are behind it in this sense is black *)
Theorem C94_dark : forall (E : @Ext NumR) (RG : Gen NumR) (O : @Geo NumR) h s0, externals_ok E -> play scene_new h = Ret s0 -> sized (pushed h) ->
  exists s, made h s /\ forall (m : @Material NumR) (r : @Ray NumR) N fuel nodes g res nodes' g' rc p n e1 e2, (2 * length (pushed h) <= fuel)%nat ->
    get_triad r = (p, n, e1, e2) -> In rc (pushed h) ->
    (forall l dir info, In l (sc_lights s ++ sc_distant_lights s) -> prim_intersect (ob_primitive l) (mkRay3D (plus p (times (1 / 1000) n)) dir) = Some info ->
       hidden_by (shape rc) p n dir (dist2 (plus p (times (1 / 1000) n)) (i_p info))) ->
    get_local_illumination fuel s m r N nodes g = Ret (res, nodes', g') -> sr res = 0 /\ sg res = 0 /\ sb res = 0.
Proof.
  intros E RG O h s0 HE HP HZ. destruct (C94_own_shadow E HE h s0 HP HZ) as (s & HB & HS). exists s. split; [exists s0; split; assumption|].
  intros m r N fuel nodes g res nodes' g' rc p n e1 e2 Hf HTr Hin HH HL. pose proof (C48_samples NumR TrigR E RG O fuel s m r N nodes g res nodes' g' HL) as K. rewrite HTr in K. cbv zeta in K.
  assert (EP : forall k, @vadd NumR p (@vscale NumR n k) = plus p (times k n)) by (intros k; rewrite vadd_plus, vscale_times; reflexivity). rewrite EP in K.
  match type of K with context [times ?k n] => change k with (1 / 1000) in K end.
  destruct K as (near & far & K1 & K2 & _ & _ & ->).
  assert (Pos : 0 < IZR 1 / IZR (Zpos (10 ^ 18))) by (apply Rdiv_lt_0_compat; [lra|apply IZR_lt; reflexivity]).
  assert (G : forall ls xs acc, (forall l, In l ls -> In l (sc_lights s ++ sc_distant_lights s)) ->
    samples_of fuel s m r (plus p (times (1 / 1000) n)) n e1 e2 N ls xs -> fold_left add_sample xs acc = acc).
  { intros ls xs acc HI HSm. revert acc. induction HSm as [|l ls xs ys _ HX HR IH]; intros acc; [reflexivity|]. rewrite fold_left_app.
    rewrite (TracerLights.samples_dark fuel s m r (plus p (times (1 / 1000) n)) n e1 e2 N l xs acc); [apply IH; intros l' Hl'; apply HI; right; exact Hl'| |exact HX].
    intros dir nd colour pdf nd' IL. unfold intersect_light in IL.
    destruct (prim_intersect (ob_primitive l) (mkRay3D (plus p (times (1 / 1000) n)) dir)) as [info|] eqn:PI'; [|discriminate IL].
    pose proof (HH l dir info (HI l (or_introl eq_refl)) PI') as HD. cbn [origin] in IL.
    destruct (HS rc p n dir _ fuel nd Hin HD Hf) as (aux' & Q).
    change (@vlen2 NumR (@vsub NumR (plus p (times (1 / 1000) n)) (i_p info))) with (dist2 (plus p (times (1 / 1000) n)) (i_p info)) in IL.
    rewrite Q in IL. cbn [obind negb] in IL. assert (pdf = @f0 NumR) by congruence. subst pdf. apply Rltb_is_true. unfold f0. cbn [flit NumR]. clear - Pos. lra. }
  rewrite (G _ _ _ (fun l Hl => in_or_app _ _ _ (or_introl Hl)) K1), (G _ _ _ (fun l Hl => in_or_app _ _ _ (or_intror Hl)) K2).
  unfold BLACK, sadd, smap2. cbn [sr sg sb]. unfold f0. cbn [flit fadd NumR]. split; [|split]; match goal with |- ?a = ?b => change (@eq R a b) end; field.
Qed.
Print Assumptions C94_dark.
(** the middle of a plate is hidden from a light at 45 degrees below it *)
Definition low : VecR := pt 0 (- sqrt (/ 2)) (- sqrt (/ 2)).
Lemma low_facts : sqrt (/ 2) * sqrt (/ 2) = / 2 /\ 7 / 10 < sqrt (/ 2) < 71 / 100.
Proof. assert (Q : sqrt (/ 2) * sqrt (/ 2) = / 2) by (apply sqrt_sqrt; lra). assert (0 < sqrt (/ 2)) by (apply sqrt_lt_R0; lra). split; [exact Q|]. nra. Qed.
Example C94_hyp : hidden_by (plate 0) (pt (1/4) (1/4) 0) up low 1.
Proof.
  destruct low_facts as [Q B]. unfold hidden_by, back, low, up in *. set (w := sqrt (/ 2)) in *. clearbody w.
  replace (dot (pt 0 0 1) (pt 0 (- w) (- w))) with (- w) by (vunf; cbn [vx vy vz pt]; ring). split; [unfold unit; vunf; cbn [vx vy vz pt]; lra|]. split; [lra|]. split; [|split].
  - exists (1/4), (1/4 - 1/1000). split; [lra|]. split; [lra|]. split; [lra|]. unfold bary, plate; cbn [ta tb tc]; apply vec_ext; vunf; cbn [vx vy vz pt]; field; lra.
  - unfold volume, plate. cbn [ta tb tc direction]. vunf. cbn [vx vy vz pt]. match goal with |- _ <= Rabs ?e => replace e with w by ring end. rewrite Rabs_pos_eq; lra.
  - replace ((1 / 1000 / - w) ^ 2) with (1 / 1000000 * (/ (w * w))) by (field; lra). rewrite Q, Rinv_inv. lra.
Qed.
(** REFUTED near the rim, and for a light exactly opposite: half a millimetre from the edge of the plate, a light at 45 degrees below
    it shines on its upper side; and everywhere on the plate so does a light straight below *)
Theorem C94_leak_refuted : exists h s s', play (E := ext_example) scene_new h = Ret s /\ rebuild_accelerator (E := ext_example) s = Ret s' /\ pushed h = [(plate 0, 0%nat, 0%nat, (up, up, up))] /\
  forall d2 aux, (exists aux', scene_unobstructed_distance (E := ext_example) 2 s' (mkRay3D (plus (pt (1/4) (1/2000) 0) (times (1 / 1000) up)) low) d2 aux = Ret (true, aux')) /\
    (exists aux', scene_unobstructed_distance (E := ext_example) 2 s' (mkRay3D (plus (pt (1/4) (1/4) 0) (times (1 / 1000) up)) (pt 0 0 (-1))) d2 aux = Ret (true, aux')).
Proof.
  destruct sunny_plays as (s0 & HP & _). assert (PU : pushed sunny_floor = [(plate 0, 0%nat, 0%nat, (up, up, up))]).
  { unfold pushed, sunny_floor. cbn [objects_of flat_map app stored facets map fst snd]. rewrite plate_normal. reflexivity. }
  assert (HZ : sized (pushed sunny_floor)) by (rewrite PU; split; [cbn; lia|apply uncrowded_few; cbn; lia]).
  destruct (C86_rebuild ext_example ext_example_ok sunny_floor s0 HP HZ) as (s' & HB & _ & _ & HS). exists sunny_floor, s0, s'. split; [exact HP|]. split; [exact HB|]. split; [exact PU|].
  destruct low_facts as [Q B]. intros d2 aux. rewrite PU in HS. split.
  - match goal with |- context [scene_unobstructed_distance 2 s' ?ry d2 aux] => destruct (HS 2%nat ry d2 aux ltac:(cbn; lia)) as (cl & aux' & Q1 & _ & K) end. destruct cl; [eauto|exfalso].
    destruct (K eq_refl) as (rc & k & [<-|[]] & (_ & _ & u & v & HE & _ & HV & _) & _). unfold shape in HE. cbn [fst] in HE.
    assert (E : 0 < epsilon <= 1 / 10000). { unfold epsilon. split; [apply Rinv_0_lt_compat, pow_lt; lra|]. unfold Rdiv. rewrite Rmult_1_l. apply Rinv_le_contravar; [lra|]. change (2 ^ 52) with (IZR 2 ^ 52). rewrite pow_IZR. apply IZR_le. vm_compute. discriminate. }
    pose proof (f_equal (@vy NumR) HE) as E1. pose proof (f_equal (@vz NumR) HE) as E2. revert E1 E2. unfold along, bary, plate, low, up. cbn [origin direction ta tb tc]. vunf. cbn [vx vy vz pt]. set (w := sqrt (/ 2)) in *. clearbody w. set (e := epsilon) in *. clearbody e. clear - HV E B. intros E1 E2. lra.
  - match goal with |- context [scene_unobstructed_distance 2 s' ?ry d2 aux] => destruct (HS 2%nat ry d2 aux ltac:(cbn; lia)) as (cl & aux' & Q1 & _ & K) end. destruct cl; [eauto|exfalso].
    destruct (K eq_refl) as (rc & k & [<-|[]] & (_ & Hk & u & v & HE & _) & (HR & _)). unfold shape in HE. cbn [fst] in HE.
    pose proof (f_equal (@vz NumR) HE) as E2. revert E2. unfold along, bary, plate, up. cbn [origin direction ta tb tc]. vunf. cbn [vx vy vz pt]. intros E2. assert (k = 1 / 1000) by lra. subst k.
    revert HR. unfold reach2, along, dist2. cbn [origin direction]. unfold up. vunf. cbn [vx vy vz pt]. lra.
Qed.
Print Assumptions C94_leak_refuted.
