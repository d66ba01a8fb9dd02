(** * Property C84: the expected daylight coefficient is the projected solid angle of the visible part of the sky patch *)
From Coquelicot Require Import Coquelicot.
From Verif Require Import NumR Geometry Triangle Sphere Colour ColourMatrix SpecMatrix MatrixProofs Ray Bvh Material Scene Samplers Primitives RayTracer SpecTracer Daylight SpecDaylight DaylightProofs DaylightReal
  TracerProofs TracerSafe TracerScenes TracerCorridor TracerLone SpecGeom SpecBvh SpecScene TriangleProofs BvhReal BvhQuery BvhExamples SpecOptics MaterialProofs
  P_Triangle P_Frame P_Bvh P_Material P_Tracer P_Samplers SceneProofs P_Scene P_Daylight P_Daylight2 P_Daylight_Sum Calculus SpecMean P_Unbiased TracerAux.
Open Scope R_scope.

(** the mean over k independent pairs of numbers drawn uniformly from [0,1), the first pair first *)
Fixpoint mean_over (k : nat) (f : list (R * R) -> R) (I : R) : Prop :=
  match k with
  | 0%nat => f [] = I
  | S k => exists rest, (forall u v, 0 < u < 1 -> 0 < v < 1 -> mean_over k (fun l => f ((u, v) :: l)) (rest u v)) /\ mean_is rest I
  end.
(** a generator in state g gives these pairs of numbers next *)
Fixpoint gives {RG : Gen NumR} (g : G) (l : list (R * R)) : Prop :=
  match l with
  | [] => True
  | (u, v) :: l => exists g1 g2, gen g = ((u : @F NumR), g1) /\ gen g1 = ((v : @F NumR), g2) /\ gives g2 l
  end.
Definition inside (l : list (R * R)) : Prop := Forall (fun p => 0 < fst p < 1 /\ 0 < snd p < 1) l.

(** surfaces that return no light: lamps (for daylight coefficients they only block) and black matte or metallic surfaces *)
Definition absorbing (m : @Material NumR) : Prop :=
  (exists col, m = Light col) \/ (exists ro, m = Plastic BLACK (0 : R) ro) \/ (exists sp ro, m = Metal BLACK sp ro).

(** [free]: the directions in front of the sensor in which a cast ray meets nothing (what that means in terms of the triangles is C03) *)
Definition views {E : @Ext NumR} (fuel : nat) (s : @Scene NumR) (ray : RayR) (free : VecR -> bool) : Prop :=
  forall v (r : @Ray NumR) aux, unit v -> 0 < dot v (direction ray) -> r_geometry r = mkRay3D (origin ray) v ->
    (free v = true <-> exists aux', cast_ray fuel s r aux = Ret (None, r, aux')).
(** 1 for the directions of bin j that are free, 0 for the others *)
Definition patch (sky : @ReinhartSky NumR) (free : VecR -> bool) (j : nat) (v : VecR) : R :=
  if free v && Nat.eqb (dir_to_bin sky v) j then 1 else 0.

(** ** means *)
Lemma mean_scal (f : R -> R -> R) I k : mean_is f I -> mean_is (fun u v => k * f u v) (k * I).
Proof.
  intros (inner & A & B). exists (fun v => k * inner v). split.
  - intros v Hv. apply (is_RInt_scal (V := R_NormedModule) _ _ _ k _ (A v Hv)).
  - apply (is_RInt_scal (V := R_NormedModule) _ _ _ k _ B).
Qed.
Lemma mean_shift (f : R -> R -> R) I a : mean_is f I -> mean_is (fun u v => a + f u v) (a + I).
Proof.
  assert (C : is_RInt (V := R_NormedModule) (fun _ => a) 0 1 a).
  { pose proof (is_RInt_const (V := R_NormedModule) 0 1 a) as C. assert (Q : scal (1 - 0) (a : R_NormedModule) = a) by (unfold scal; cbn; unfold mult; cbn; ring). exact (eq_ind _ (fun z => is_RInt (V := R_NormedModule) (fun _ => a) 0 1 z) C _ Q). }
  intros (inner & A & B). exists (fun v => a + inner v). split.
  - intros v Hv. apply (is_RInt_plus (V := R_NormedModule) _ _ _ _ _ _ C (A v Hv)).
  - apply (is_RInt_plus (V := R_NormedModule) _ _ _ _ _ _ C B).
Qed.
Definition sum_of (g : R -> R -> R) (l : list (R * R)) : R := fold_left (fun a p => a + g (fst p) (snd p)) l 0.
Lemma sum_fold g l : forall a, fold_left (fun a p => a + g (fst p) (snd p)) l a = a + sum_of g l.
Proof.
  unfold sum_of. induction l as [|p l IH]; intros a; cbn [fold_left]; [lra|]. rewrite IH, (IH (0 + _)). lra.
Qed.
Lemma mean_ext : forall k f f' I, (forall l, f l = f' l) -> mean_over k f I -> mean_over k f' I.
Proof.
  induction k as [|k IH]; intros f f' I H; cbn [mean_over]; [rewrite H; trivial|].
  intros (rest & A & B). exists rest. split; [|exact B]. intros u v Hu Hv. apply (IH (fun l => f ((u, v) :: l))); [intros; apply H|auto].
Qed.
Lemma mean_sum g M : mean_is g M -> forall k a, mean_over k (fun l => a + sum_of g l) (a + INR k * M).
Proof.
  intros HM. induction k as [|k IH]; intros a; cbn [mean_over].
  - unfold sum_of. cbn. lra.
  - exists (fun u v => a + INR k * M + g u v). split.
    + intros u v _ _. replace (a + INR k * M + g u v) with ((a + g u v) + INR k * M) by ring.
      eapply mean_ext; [|apply (IH (a + g u v))]. intros l. cbn beta. unfold sum_of at 2. cbn [fold_left fst snd]. rewrite sum_fold. lra.
    + rewrite S_INR. replace (a + (INR k + 1) * M) with (a + INR k * M + M) by ring. apply mean_shift. exact HM.
Qed.

(** ** light that is lost *)
Scheme spreads_mind := Minimality for spreads Sort Prop
  with sends_mind := Minimality for sends Sort Prop
  with bounces_mind := Minimality for bounces Sort Prop.
Combined Scheme spread_mind from spreads_mind, sends_mind, bounces_mind.

Lemma black_eq : @BLACK NumR = @gray NumR (0 / 1). Proof. reflexivity. Qed.
Lemma smul_black_l (x : @Spectrum NumR) : smul BLACK x = BLACK.
Proof. destruct x as [a b c]. change R in a, b, c. unfold smul, smap2, BLACK. cbn [sr sg sb]. change (@fmul NumR) with Rmult. change (@f0 NumR) with (0/1). f_equal; match goal with |- ?a = ?b => change (@eq R a b) end; field. Qed.
Lemma smul_black_r (x : @Spectrum NumR) : smul x BLACK = BLACK.
Proof. destruct x as [a b c]. change R in a, b, c. unfold smul, smap2, BLACK. cbn [sr sg sb]. change (@fmul NumR) with Rmult. change (@f0 NumR) with (0/1). f_equal; match goal with |- ?a = ?b => change (@eq R a b) end; field. Qed.
Lemma smulf_black (k : R) : @smulf NumR BLACK k = BLACK.
Proof. unfold smulf, smap, BLACK. cbn [sr sg sb]. change (@fmul NumR) with Rmult. change (@f0 NumR) with (0/1). f_equal; match goal with |- ?a = ?b => change (@eq R a b) end; field. Qed.
Lemma sdivf_black (k : R) : @sdivf NumR BLACK k = BLACK.
Proof. unfold sdivf, smap, BLACK. cbn [sr sg sb]. change (@fdiv NumR) with Rdiv. change (@f0 NumR) with (0/1). f_equal; match goal with |- ?a = ?b => change (@eq R a b) end; unfold Rdiv; ring. Qed.
Lemma sadd_black_l (x : @Spectrum NumR) : sadd BLACK x = x.
Proof. destruct x as [a b c]. change R in a, b, c. unfold sadd, smap2, BLACK. cbn [sr sg sb]. change (@fadd NumR) with Rplus. change (@f0 NumR) with (0/1). f_equal; match goal with |- ?a = ?b => change (@eq R a b) end; field. Qed.

Section Dark.
  Context {E : @Ext NumR} {RG : Gen NumR} {GO : @Geo NumR}.
  Variables (fuel : nat) (d : @DCFactory NumR) (s : @Scene NumR).
  Hypothesis Hfair : fair RG.
  Hypothesis Habs : Forall absorbing (sc_materials s).
  Hypothesis Hcast : forall (r r1 : @Ray NumR) aux aux', cast_ray fuel s r aux = Ret (None, r1, aux') -> r1 = r.

  Lemma absorbing_bsdf (m : @Material NumR) normal e1 e2 p r g bsdf pdf r1 g' : absorbing m ->
    sample_bsdf_draw fuel m normal e1 e2 p r g = Ret (bsdf, pdf, r1, g') -> bsdf = BLACK.
  Proof.
    intros [(col & ->)|[(ro & ->)|(sp & ro & ->)]]; cbn [sample_bsdf_draw]; [discriminate| |].
    - destruct (sample_ward_draw _ _ _ _ _ _ _ _ _ _) as [[[[[a b] w] r2] g2]| |] eqn:SW; cbn [obind]; try discriminate. intros H.
      assert (EB : bsdf = plastic_bsdf BLACK a b) by congruence. rewrite EB. clear H EB.
      assert (A0 : a = f0).
      { unfold sample_ward_draw in SW. pose proof (Hfair g) as D. destruct (gen g) as [q g1]. cbn [fst] in D.
        assert (QF : @fltb NumR q (0 : R) = false) by (apply Rltb_is_false; lra). rewrite QF in SW. destruct (gen g1) as [x1 g3], (gen g3) as [x2 g4].
        unfold sample_ward in SW. cbn [wd_prob] in SW. rewrite QF in SW. cbv zeta in SW. cbn [wd_disc fst snd obind] in SW. congruence. }
      subst a. unfold plastic_bsdf. rewrite smulf_black. change (@gray NumR (@f0 NumR)) with (@BLACK NumR). apply sadd_black_l.
    - destruct (sample_ward_draw _ _ _ _ _ _ _ _ _ _) as [[[[[a b] w] r2] g2]| |] eqn:SW; cbn [obind]; try discriminate. intros H.
      assert (EB : bsdf = metal_bsdf BLACK a b) by congruence. rewrite EB. unfold metal_bsdf. rewrite !smulf_black. apply sadd_black_l.
  Qed.

  Lemma facing_absorbs (r1 : @Ray NumR) i m : facing s r1 i m -> absorbing m.
  Proof. intros (k & Hk & _). rewrite Forall_forall in Habs. apply Habs. eapply nth_error_In. exact Hk. Qed.

  Notation dark := (Forall (fun x : @Deposit NumR => snd x = BLACK)).
  Lemma spread_dark : (forall r ds r', spreads fuel d s r ds r' -> r_colour r = BLACK -> dark ds) /\
    (forall p ds, sends fuel d s p ds -> True) /\
    (forall m at_ n r ds r', bounces fuel d s m at_ n r ds r' -> absorbing m -> dark ds).
  Proof.
    apply (spread_mind NumR TrigR E RG fuel d s (fun r ds r' => r_colour r = BLACK -> dark ds) (fun p ds => True)
            (fun m at_ n r ds r' => absorbing m -> dark ds)).
    - intros r r1 (aux & aux' & C) HC. apply Hcast in C. subst r1. constructor; [|constructor]. unfold gift. cbn [snd]. rewrite HC, smul_black_r. apply sdivf_black.
    - constructor.
    - constructor.
    - constructor.
    - intros r i r1 r2 m p1 p2 ds1 ds2 _ FM RO _ _ _ _ _ _ _ _. exfalso. apply facing_absorbs in FM.
      destruct FM as [(c & ->)|[(ro & ->)|(sp & ro & ->)]]; destruct RO as [(? & Q)|[(? & ? & Q)|(? & ? & Q)]]; discriminate.
    - intros r i r1 r2 r3 r4 m n q ds _ FM _ _ _ _ _ IH _. apply IH. eapply facing_absorbs. exact FM.
    - exact I.
    - intros. exact I.
    - constructor.
    - intros m at_ n r g bsdf pdf r1 g' r2 r3 ds1 ds2 SB cosine _ IH1 _ IH2 HA. apply Forall_app. split; [|apply IH2; exact HA].
      apply IH1. apply absorbing_bsdf in SB; [|exact HA]. subst bsdf. cbn [r_colour deeper set_depth set_colour]. rewrite smulf_black, sdivf_black. apply smul_black_r.
  Qed.

  Lemma given_dark j ds : dark ds -> given j ds (@BLACK NumR) = BLACK.
  Proof.
    unfold given. induction 1 as [|x l Hx Hl IH]; [reflexivity|]. cbn [filter]. destruct (Nat.eqb (fst x) j); [|exact IH]. cbn [map fold_left]. rewrite Hx, sadd_black_l. exact IH.
  Qed.
End Dark.

(** ** one primary ray *)
Notation world e2 n := (fun l : VecR => @local_to_world NumR (@vcross NumR e2 n) e2 n vorigin (vx l) (vy l) (vz l)).
Notation drawn := (@sample_cosine_weighted_horizontal_hemisphere NumR TrigR).

Section Share.
  Context {E : @Ext NumR} {RG : Gen NumR} {GO : @Geo NumR}.
  Variables (fuel : nat) (d : @DCFactory NumR) (s : @Scene NumR).
  Hypothesis Hfind : forall r aux, finds s fuel r aux.
  Variables (ray : RayR) (e2 : VecR) (free : VecR -> bool).
  Hypothesis Hview : views fuel s ray free.
  Notation n := (INR (dc_n_ambient_samples d)).
  Hypothesis Hsamples : (0 < dc_n_ambient_samples d)%nat.

  Lemma cast_miss (r r1 : @Ray NumR) aux aux' : cast_ray fuel s r aux = Ret (None, r1, aux') -> r1 = r.
  Proof. intros C. destruct (Hfind r aux) as [(j & t & k & x & b & H & _)|(b & H & _)]; rewrite H in C; congruence. Qed.

  Lemma share (l : VecR) r ds r' j : leaves ray e2 l r -> unit (world e2 (direction ray) l) -> 0 < dot (world e2 (direction ray) l) (direction ray) ->
    (forall i r1, meets fuel s r i r1 -> Forall (fun x => snd x = @BLACK NumR) ds) ->
    spreads fuel d s r ds r' -> given j ds (@BLACK NumR) = @gray NumR (PI / n * patch (dc_reinhart d) free j (world e2 (direction ray) l)).
  Proof.
    intros (L1 & L2 & L3 & _) HU HD Hlost HS. set (v := world e2 (direction ray) l) in *. change (direction (r_geometry r) = v) in L2.
    assert (RG0 : r_geometry r = mkRay3D (origin ray) v) by (destruct (r_geometry r) as [o1 d1]; cbn in L1, L2; subst; reflexivity).
    unfold patch.
    assert (Z0 : @gray NumR (PI / n * 0) = BLACK) by (rewrite black_eq; f_equal; match goal with |- ?a = ?b => change (@eq R a b) end; lra).
    assert (LOST : forall i r1, meets fuel s r i r1 -> given j ds (@BLACK NumR) = BLACK) by (intros i r1 M; apply given_dark; eapply Hlost; eassumption).
    destruct (free v) eqn:FV; cbn [andb].
    - (* the sky is reached *)
      assert (NM : forall i r1, ~ meets fuel s r i r1).
      { intros i r1 (z & aux & aux' & C & _). destruct (proj1 (Hview v r aux HU HD RG0) FV) as (b & H). rewrite H in C. discriminate. }
      inversion HS as [ra r1 HE| | | | |]; subst; try (exfalso; eapply NM; eassumption).
      destruct HE as (aux & aux' & C). apply cast_miss in C. subst r'. unfold given, gift. cbn [filter fst]. rewrite L2.
      destruct (Nat.eqb (dir_to_bin (dc_reinhart d) v) j); cbn [map fold_left snd].
      + rewrite sadd_black_l, L3. 
        assert (QN : @fofZ NumR (Z.of_nat (dc_n_ambient_samples d)) = n) by (change (IZR (Z.of_nat (dc_n_ambient_samples d)) = n); rewrite <- INR_IZR_INZ; reflexivity).
        rewrite QN. assert (0 < n) by (apply lt_0_INR; exact Hsamples).
        unfold gray, smul, sdivf, smap, smap2, ONE. cbn [sr sg sb].
        assert (Q : 1/1 * PI / n = PI / n * 1) by (field; lra). f_equal; exact Q.
      + symmetry. exact Z0.
    - destruct (Hfind r (h_nodes helper_default)) as [(q & t' & k' & x & b & H & _)|(b & H & X)].
      + rewrite (LOST (Z.to_nat (Z.of_nat q)) (set_interaction r x)); [symmetry; exact Z0|]. exists (Z.of_nat q), (h_nodes helper_default), b. split; [exact H|reflexivity].
      + exfalso. assert (free v = true) by (apply (Hview v r (h_nodes helper_default) HU HD RG0); eauto). congruence.
  Qed.
End Share.

(** ** the matrix *)
Lemma directions_given {RG : Gen NumR} (l : list (R * R)) : forall g, gives g l ->
  draw_directions (length l) g = map (fun p => drawn (fst p) (snd p)) l.
Proof.
  induction l as [|[u v] l IH]; intros g H; cbn [length draw_directions map]; [reflexivity|].
  destruct H as (g1 & g2 & H1 & H2 & H3). rewrite H1, H2, (IH g2 H3). reflexivity.
Qed.

Lemma sum_gray (f : R * R -> R) (l : list (R * R)) : forall a : R,
  fold_left sadd (map (fun p => @gray NumR (f p)) l) (@gray NumR a) = @gray NumR (a + sum_of (fun u v => f (u, v)) l).
Proof.
  induction l as [|[u v] l IH]; intros a; cbn [map fold_left].
  - unfold sum_of. cbn. f_equal. match goal with |- ?a = ?b => change (@eq R a b) end. lra.
  - change (sadd (@gray NumR a) (@gray NumR (f (u, v)))) with (@gray NumR (a + f (u, v))). rewrite IH. f_equal.
    unfold sum_of at 2. cbn [fold_left fst snd]. rewrite (sum_fold (fun u v => f (u, v))). match goal with |- ?a = ?b => change (@eq R a b) end. lra.
Qed.

Definition estimate (d : @DCFactory NumR) (ray : RayR) (e2 : VecR) (free : VecR -> bool) (j : nat) (l : list (R * R)) : R :=
  sum_of (fun u v => PI / INR (dc_n_ambient_samples d) * patch (dc_reinhart d) free j (world e2 (direction ray) (drawn u v))) l.

Section Matrix.
  Context {E : @Ext NumR} {RG : Gen NumR} {GO : @Geo NumR}.
  Variables (fuel : nat) (d : @DCFactory NumR) (s : @Scene NumR).
  Hypothesis Hfind : forall r aux, finds s fuel r aux.
  Hypothesis Hsamples : (0 < dc_n_ambient_samples d)%nat.
  Hypothesis Hperp : perpendicular_good GO.

  Lemma matrix_entry nest rays seed seeds m i ray e2 free j l :
    calc_dc nest fuel d rays s seed seeds = Ret m -> nth_error rays i = Some ray -> unit (direction ray) ->
    get_perpendicular (direction ray) = Some e2 -> (j < n_bins (dc_reinhart d))%nat ->
    views fuel s ray free ->
    (forall r k r1 ds r', (exists v, unit v /\ 0 < dot v (direction ray) /\ r_geometry r = mkRay3D (origin ray) v) -> meets fuel s r k r1 -> spreads fuel d s r ds r' -> Forall (fun x => snd x = @BLACK NumR) ds) ->
    gives (seed i) l -> length l = dc_n_ambient_samples d -> inside l ->
    entry m i j = @gray NumR (estimate d ray e2 free j l).
  Proof.
    intros HC Hi HU GP Hj HV HLost HG HL HI. destruct (C69_matrix _ _ _ _ _ _ _ _ _ _ _ _ _ HC) as (_ & _ & HM).
    destruct (HM i ray Hi) as (e2' & shares & GP' & HF & HE). rewrite GP in GP'. injection GP' as <-.
    unfold entry. rewrite (HE j Hj). clear HE. rewrite <- HL in HF. rewrite (directions_given l _ HG) in HF.
    destruct (Hperp (direction ray) HU) as (e2' & GP' & PT). rewrite GP in GP'. injection GP' as <-. pose proof (frame_of _ _ HU PT) as FR.
    assert (EQ : map (fun ds => given j ds (@BLACK NumR)) shares = map (fun p => @gray NumR (PI / INR (dc_n_ambient_samples d) * patch (dc_reinhart d) free j (world e2 (direction ray) (drawn (fst p) (snd p))))) l).
    { clear HL HG. revert shares HF. induction HI as [|[u v] l [Hu Hv] HI IH]; intros shares HF; cbn [map] in HF; inversion HF as [|a ds la dsl (r & r' & HLe & HS) HFl]; subst; [reflexivity|].
      cbn [map]. rewrite (IH dsl HFl). f_equal. cbn [fst snd] in *.
      assert (D1 : 0 <= u < 1) by lra. destruct (C52_cosine_hemisphere u v _ _ _ D1 FR) as (_ & A & B).
      assert (Dir : r_geometry r = mkRay3D (origin ray) (world e2 (direction ray) (drawn u v))).
      { destruct HLe as (L1 & L2 & _). destruct (r_geometry r) as [o1 d1]. cbn in L1, L2. subst. reflexivity. }
      apply share with (fuel := fuel) (s := s) (r := r) (r' := r'); try assumption.
      intros k r1 M. eapply HLost; [|exact M|exact HS]. exists (world e2 (direction ray) (drawn u v)). auto. }
    rewrite EQ. change (@BLACK NumR) with (@gray NumR (0/1)). rewrite (sum_gray (fun p => PI / INR (dc_n_ambient_samples d) * patch (dc_reinhart d) free j (world e2 (direction ray) (drawn (fst p) (snd p))))).
    unfold estimate. cbn [fst snd]. f_equal. match goal with |- ?a = ?b => change (@eq R a b) end. lra.
  Qed.

  Lemma estimate_mean ray e2 free j P : unit (direction ray) -> get_perpendicular (direction ray) = Some e2 ->
    (forall phi, 0 < phi < 2 * PI -> piecewise (fun theta => patch (dc_reinhart d) free j (towards (cross e2 (direction ray)) e2 (direction ray) theta phi)) 0 (PI / 2)) ->
    hemisphere_integral (cross e2 (direction ray)) e2 (direction ray) (fun v => patch (dc_reinhart d) free j v * dot v (direction ray)) P ->
    mean_over (dc_n_ambient_samples d) (estimate d ray e2 free j) P.
  Proof.
    intros HU GP HP HI. destruct (Hperp (direction ray) HU) as (e2' & GP' & PT). rewrite GP in GP'. injection GP' as <-. pose proof (frame_of _ _ HU PT) as FR.
    pose proof (C79_cosine _ _ _ _ _ FR HP HI) as M. apply (mean_scal _ _ (PI / INR (dc_n_ambient_samples d))) in M.
    pose proof (mean_sum _ _ M (dc_n_ambient_samples d) 0) as S. assert (0 < INR (dc_n_ambient_samples d)) by (apply lt_0_INR; exact Hsamples). pose proof PI_RGT_0.
    replace (0 + INR (dc_n_ambient_samples d) * (PI / INR (dc_n_ambient_samples d) * (P / PI))) with P in S by (field; split; lra).
    eapply mean_ext; [|exact S]. intros l. cbn beta. rewrite Rplus_0_l. unfold estimate. reflexivity.
  Qed.
End Matrix.

(** ** C84 - the expected coefficient.
    For every scene whose surfaces return no light, sensor, sky subdivision and number of samples n: the coefficient of bin j is a
    function of the n pairs of numbers drawn for the sensor, and its mean is the integral of the cosine over the solid angle of the
    part of bin j that the sensor sees. *)
Theorem C84_expected : forall (E : @Ext NumR) (RG : Gen NumR) (GO : @Geo NumR) h s0, externals_ok E -> fair RG -> perpendicular_good GO ->
  play scene_new h = Ret s0 -> manageable s0 -> Forall absorbing (sc_materials s0) ->
  exists s, made h s /\ forall (d : @DCFactory NumR) rays fuel i ray e2 free j P,
    (0 < dc_n_ambient_samples d)%nat -> (2 * length (a_tri (sc_arrays s0)) <= fuel)%nat ->
    nth_error rays i = Some ray -> unit (direction ray) -> get_perpendicular (direction ray) = Some e2 ->
    (j < n_bins (dc_reinhart d))%nat -> views fuel s ray free ->
    (forall phi, 0 < phi < 2 * PI -> piecewise (fun theta => patch (dc_reinhart d) free j (towards (cross e2 (direction ray)) e2 (direction ray) theta phi)) 0 (PI / 2)) ->
    hemisphere_integral (cross e2 (direction ray)) e2 (direction ray) (fun v => patch (dc_reinhart d) free j v * dot v (direction ray)) P ->
    exists est, mean_over (dc_n_ambient_samples d) est P /\
      forall nest seed seeds m l, gives (seed i) l -> length l = dc_n_ambient_samples d -> inside l ->
        calc_dc nest fuel d rays s seed seeds = Ret m -> entry m i j = @gray NumR (est l).
Proof.
  intros E RG GO h s0 HE HF HPp HP HM HA. destruct (rebuilt (HE := HE) h s0 HP HM) as (s & HB & EM & _ & _ & _ & _ & _ & _ & _ & HQ).
  exists s. split; [exists s0; split; assumption|]. intros d rays fuel i ray e2 free j P Hn Hfuel Hi HU GP Hj HV HPw HI. destruct (HQ fuel Hfuel) as [HFi _].
  rewrite <- EM in HA. exists (estimate d ray e2 free j). split; [eapply estimate_mean; eassumption|].
  intros nest seed seeds m l HG HL HIn HC. eapply matrix_entry; try eassumption.
  intros r k r1 ds r' _ M SP.
  assert (Hcast : forall (r r1 : @Ray NumR) aux aux', cast_ray fuel s r aux = Ret (None, r1, aux') -> r1 = r) by (intros; eapply cast_miss; eassumption).
  destruct (spread_dark fuel d s HF HA Hcast) as (_ & _ & DB).
  assert (NE : forall r1, ~ escapes fuel s r r1).
  { intros r2 (aux & aux' & C). destruct M as (z & b & b' & C' & _). pose proof (cast_alike fuel s r aux b) as CA. rewrite C, C' in CA. cbn in CA. congruence. }
  inversion SP; subst; try solve [constructor].
  - exfalso. eapply NE. eassumption.
  - exfalso. match goal with F0 : facing _ _ _ _, RO : reflects_only _ |- _ => apply (facing_absorbs s HA) in F0; destruct F0 as [(c & ->)|[(ro & ->)|(sp & ro & ->)]]; destruct RO as [(? & Q)|[(? & ? & Q)|(? & ? & Q)]]; discriminate end.
  - eapply DB; [eassumption|]. eapply facing_absorbs; eassumption.
Qed.
Print Assumptions C84_expected.

(** An unobstructed sensor, whatever the surfaces behind it are made of: the coefficients are always computed, and on average each is
    the integral of the cosine over the bin. *)
Theorem C84_open : forall (E : @Ext NumR) (RG : Gen NumR) (GO : @Geo NumR) h s0, externals_ok E -> fair RG -> perpendicular_good GO ->
  play scene_new h = Ret s0 -> manageable s0 ->
  exists s, made h s /\ forall (d : @DCFactory NumR) ray fuel e2 j P,
    binned (dc_reinhart d) -> (0 < dc_n_ambient_samples d)%nat -> (2 * length (a_tri (sc_arrays s0)) <= fuel)%nat ->
    unit (direction ray) -> unobstructed s ray -> get_perpendicular (direction ray) = Some e2 -> (j < n_bins (dc_reinhart d))%nat ->
    (forall phi, 0 < phi < 2 * PI -> piecewise (fun theta => patch (dc_reinhart d) (fun _ => true) j (towards (cross e2 (direction ray)) e2 (direction ray) theta phi)) 0 (PI / 2)) ->
    hemisphere_integral (cross e2 (direction ray)) e2 (direction ray) (fun v => patch (dc_reinhart d) (fun _ => true) j v * dot v (direction ray)) P ->
    exists est, mean_over (dc_n_ambient_samples d) est P /\
      forall nest seed seeds l, (0 < nest)%nat -> gives (seed 0%nat) l -> length l = dc_n_ambient_samples d -> inside l ->
        exists m, calc_dc nest fuel d [ray] s seed seeds = Ret m /\ entry m 0 j = @gray NumR (est l).
Proof.
  intros E RG GO h s0 HE HF HPp HP HM. destruct (C50_open E RG GO h s0 HE HF HPp HP HM) as (s' & (s1 & PS & RS) & HO).
  destruct (rebuilt (HE := HE) h s0 HP HM) as (s & HB & EM & _ & _ & _ & _ & _ & _ & _ & HQ).
  rewrite HP in PS. injection PS as <-. rewrite HB in RS. injection RS as <-.
  exists s. split; [exists s0; split; assumption|]. intros d ray fuel e2 j P Hb Hn Hfuel HU HUn GP Hj HPw HI. destruct (HQ fuel Hfuel) as [HFi _].
  exists (estimate d ray e2 (fun _ => true) j). split; [eapply estimate_mean; eassumption|].
  intros nest seed seeds l Hnest HG HL HIn. destruct (HO d [ray] seed seeds nest fuel Hb Hn Hnest Hfuel) as (m & HC & _); [constructor; [split; assumption|constructor]|].
  exists m. split; [exact HC|]. eapply matrix_entry; try eassumption; [reflexivity| |].
  - intros v r aux UV DV RV. split; [|reflexivity]. intros _. destruct (HFi r aux) as [(q & t & q' & x & bb & H & X1 & X2 & X3 & _)|(bb & H & X)]; [|eauto].
    exfalso. cbv zeta in X2, X3. rewrite RV in X2, X3. apply (HUn v t q'); try assumption. eapply nth_error_In; exact X1.
  - intros r k r1 ds r' (v & UV & DV & RV) (z & aux & aux' & C & _) _. exfalso.
    destruct (HFi r aux) as [(q & t & q' & x & bb & H & X1 & X2 & X3 & _)|(bb & H & X)]; [|rewrite H in C; discriminate].
    cbv zeta in X2, X3. rewrite RV in X2, X3. apply (HUn v t q'); try assumption. eapply nth_error_In; exact X1.
Qed.
Print Assumptions C84_open.

(** ** what these integrals are for the usual patches: bounded by two angles from the sensor's direction and two azimuths *)
Definition box (t1 t2 : R) (sector : R -> bool) (theta phi : R) : R := if sector phi then if Rlt_dec t1 theta then if Rlt_dec theta t2 then 1 else 0 else 0 else 0.
Definition sector_of (p1 p2 : R) (sector : R -> bool) : Prop :=
  forall phi, 0 < phi < 2 * PI -> (p1 < phi < p2 -> sector phi = true) /\ (phi < p1 \/ p2 < phi -> sector phi = false).
Theorem C84_patch : forall e1 e2 n (f : VecR -> R) t1 t2 p1 p2 sector, frame e1 e2 n ->
  0 <= t1 -> t1 <= t2 -> t2 <= PI / 2 -> 0 <= p1 -> p1 <= p2 -> p2 <= 2 * PI -> sector_of p1 p2 sector ->
  (forall theta phi, 0 < theta < PI / 2 -> 0 < phi < 2 * PI -> theta <> t1 -> theta <> t2 -> f (towards e1 e2 n theta phi) = box t1 t2 sector theta phi) ->
  (forall phi, 0 < phi < 2 * PI -> piecewise (fun theta => f (towards e1 e2 n theta phi)) 0 (PI / 2)) /\
  hemisphere_integral e1 e2 n (fun v => f v * dot v n) ((p2 - p1) * (sin t2 * sin t2 - sin t1 * sin t1) / 2).
Proof.
  intros e1 e2 n f t1 t2 p1 p2 sector HF A1 A2 A3 B1 B2 B3 HS Hf. pose proof PI_RGT_0 as P0.
  assert (L1 : forall theta phi, 0 < phi < 2 * PI -> 0 < theta < t1 -> f (towards e1 e2 n theta phi) = 0).
  { intros theta phi Hp Ht. rewrite Hf by lra. unfold box. destruct (sector phi); [|reflexivity]. destruct (Rlt_dec t1 theta); [lra|reflexivity]. }
  assert (L2 : forall theta phi, 0 < phi < 2 * PI -> t1 < theta < t2 -> f (towards e1 e2 n theta phi) = if sector phi then 1 else 0).
  { intros theta phi Hp Ht. rewrite Hf by lra. unfold box. destruct (sector phi); [|reflexivity]. destruct (Rlt_dec t1 theta); [|lra]. destruct (Rlt_dec theta t2); [reflexivity|lra]. }
  assert (L3 : forall theta phi, 0 < phi < 2 * PI -> t2 < theta < PI / 2 -> f (towards e1 e2 n theta phi) = 0).
  { intros theta phi Hp Ht. rewrite Hf by lra. unfold box. destruct (sector phi); [|reflexivity]. destruct (Rlt_dec t1 theta); [|reflexivity]. destruct (Rlt_dec theta t2); [lra|reflexivity]. }
  split.
  - intros phi Hp. apply two_pieces with t1; [|apply two_pieces with t2].
    + apply one_piece with (fun _ => 0); [lra|intros; apply continuous_const|]. intros x Hx. apply L1; lra.
    + apply one_piece with (fun _ => if sector phi then 1 else 0); [lra|intros; apply continuous_const|]. intros x Hx. apply L2; lra.
    + apply one_piece with (fun _ => 0); [lra|intros; apply continuous_const|]. intros x Hx. apply L3; lra.
  - set (q := (sin t2 * sin t2 - sin t1 * sin t1) / 2). exists (fun phi => if sector phi then q else 0).
    assert (ZERO : forall a b, is_RInt (V := R_NormedModule) (fun _ => 0) a b 0).
    { intros a b. pose proof (is_RInt_const (V := R_NormedModule) a b (0 : R)) as C. assert (Q : scal (b - a) (0 : R_NormedModule) = 0) by (unfold scal; cbn; unfold mult; cbn; ring).
      exact (eq_ind _ (fun z => is_RInt (V := R_NormedModule) (fun _ => 0) a b z) C _ Q). }
    assert (CONST : forall k a b, is_RInt (V := R_NormedModule) (fun _ => k) a b ((b - a) * k)).
    { intros k a b. pose proof (is_RInt_const (V := R_NormedModule) a b (k : R)) as C. exact C. }
    assert (GLUE : forall (g : R -> R) a b c e x, is_RInt g a b 0 -> is_RInt g b c x -> is_RInt g c e 0 -> is_RInt g a e x).
    { intros g a b c e x G1 G2 G3. pose proof (is_RInt_Chasles (V := R_NormedModule) _ _ _ _ _ _ (is_RInt_Chasles (V := R_NormedModule) _ _ _ _ _ _ G1 G2) G3) as G4.
      assert (Q : Hierarchy.plus (Hierarchy.plus (0 : R_NormedModule) x) (0 : R_NormedModule) = x) by (unfold Hierarchy.plus; cbn; ring).
      exact (eq_ind _ (fun z => is_RInt (V := R_NormedModule) g a e z) G4 _ Q). }
    split.
    + intros phi Hp. apply (GLUE _ 0 t1 t2 (PI / 2)).
      * eapply is_RInt_ext; [|apply ZERO]. intros x. rewrite Rmin_left, Rmax_right by lra. intros Hx. cbn beta. rewrite L1 by lra. match goal with |- ?a = ?b => change (@eq R a b) end. ring.
      * apply (is_RInt_ext (fun t => (if sector phi then 1 else 0) * (cos t * sin t))).
        { intros x. rewrite Rmin_left, Rmax_right by lra. intros Hx. rewrite L2 by lra. rewrite (proj2 (towards_facts e1 e2 n x phi HF)). match goal with |- ?a = ?b => change (@eq R a b) end. ring. }
        replace (if sector phi then q else 0) with (scal (if sector phi then 1 else 0) (q : R_NormedModule)) by (unfold scal; cbn; unfold mult; cbn; destruct (sector phi); ring).
        apply (is_RInt_scal (V := R_NormedModule)).
        assert (Q : Hierarchy.minus ((fun t => sin t * sin t / 2) t2 : R_NormedModule) ((fun t => sin t * sin t / 2) t1) = q) by (unfold Hierarchy.minus, Hierarchy.plus, opp, q; cbn; field).
        rewrite <- Q. apply (is_RInt_derive (V := R_CompleteNormedModule) (fun t => sin t * sin t / 2) (fun t => cos t * sin t)).
        -- intros x _. auto_derive; [trivial|]. field.
        -- intros x _. apply (continuous_mult (K := R_AbsRing)); [apply continuous_cos|apply continuous_sin].
      * eapply is_RInt_ext; [|apply ZERO]. intros x. rewrite Rmin_left, Rmax_right by lra. intros Hx. cbn beta. rewrite L3 by lra. match goal with |- ?a = ?b => change (@eq R a b) end. ring.
    + apply (GLUE _ 0 p1 p2 (2 * PI)).
      * eapply is_RInt_ext; [|apply ZERO]. intros x. rewrite Rmin_left, Rmax_right by lra. intros Hx. cbn beta. destruct (HS x ltac:(lra)) as [_ S2]. rewrite S2 by lra. reflexivity.
      * replace ((p2 - p1) * (sin t2 * sin t2 - sin t1 * sin t1) / 2) with ((p2 - p1) * q) by (unfold q; field).
        eapply is_RInt_ext; [|apply CONST]. intros x. rewrite Rmin_left, Rmax_right by lra. intros Hx. cbn beta. destruct (HS x ltac:(lra)) as [S1 _]. rewrite S1 by lra. reflexivity.
      * eapply is_RInt_ext; [|apply ZERO]. intros x. rewrite Rmin_left, Rmax_right by lra. intros Hx. cbn beta. destruct (HS x ltac:(lra)) as [_ S2]. rewrite S2 by lra. reflexivity.
Qed.
Print Assumptions C84_patch.

(** ** a case: two black plates below a sensor that looks up, and a sky of two bins, up to 60 degrees from the zenith and beyond *)
Definition black_wall : @Material NumR := Plastic BLACK (0 : R) (0 : R).
Definition two_caps : @ReinhartSky NumR := mkReinhart (N := NumR) 2 (fun v => if Rlt_dec (1 / 2) (vz v) then 1%nat else 0%nat).
Example C84_hyp : exists s0, play (E := ext_example) scene_new (corridor black_wall) = Ret s0 /\ manageable s0 /\ Forall absorbing (sc_materials s0) /\ binned two_caps /\
  exists e2, get_perpendicular (Geo := geo_perp) (direction sensor_top) = Some e2 /\
  (forall s, made (E := ext_example) (corridor black_wall) s -> unobstructed s sensor_top /\
     forall fuel, (2 * length (a_tri (sc_arrays s0)) <= fuel)%nat -> views (E := ext_example) fuel s sensor_top (fun _ => true)) /\
  (forall phi, 0 < phi < 2 * PI -> piecewise (fun theta => patch two_caps (fun _ => true) 1 (towards (cross e2 (direction sensor_top)) e2 (direction sensor_top) theta phi)) 0 (PI / 2)) /\
  hemisphere_integral (cross e2 (direction sensor_top)) e2 (direction sensor_top) (fun v => patch two_caps (fun _ => true) 1 v * dot v (direction sensor_top)) (3 / 4 * PI).
Proof.
  destruct (corridor_plays (E := ext_example) black_wall eq_refl) as (s0 & HP & HM & _ & H1 & _). exists s0. split; [exact HP|]. split; [exact HM|].
  split. { rewrite H1. constructor; [|constructor]. right. left. eexists. reflexivity. }
  split. { intros v _. cbn. destruct (Rlt_dec (1 / 2) (vz v)); lia. }
  exists (perpendicular_of (direction sensor_top)). split; [reflexivity|].
  pose proof (perpendicular_of_ok _ up_unit) as PT. change up with (direction sensor_top) in PT. set (e2 := perpendicular_of (direction sensor_top)) in *. pose proof (frame_of (direction sensor_top) e2 up_unit PT) as FR.
  split.
  - intros s (s0' & HP' & HR). rewrite HP in HP'. injection HP' as <-.
    destruct (rebuilt (E := ext_example) (HE := ext_example_ok) _ s0 HP HM) as (s' & HB & _ & _ & _ & _ & _ & Ha & Hp & _ & HQ). rewrite HB in HR. injection HR as ->.
    assert (HUn : unobstructed s sensor_top).
    { intros v t k U Hv Hin HT _.
      assert (Q : exists z, z <= 1 /\ t = plate z).
      { rewrite <- (map_records_tri _ Ha) in Hin. apply in_map_iff in Hin as (rec & <- & Hin). apply (Permutation.Permutation_in _ Hp) in Hin.
        unfold corridor, objects_of, stored in Hin. cbn [flat_map app] in Hin. rewrite !plate_facets in Hin. cbn in Hin.
        destruct Hin as [<-|[<-|[]]]; [exists 0|exists 1]; (split; [lra|reflexivity]). }
      destruct Q as (z & Hz & ->). destruct HT as (_ & Hk & u & w & HB' & _). apply (f_equal (@vz NumR)) in HB'.
      destruct v as [x y q]. unfold along, bary, plate, sensor_top in *. vunf. cbn [origin direction ta tb tc vx vy vz] in *. nra. }
    split; [exact HUn|]. intros fuel Hfuel v r aux UV DV RV. split; [|reflexivity]. intros _. destruct (HQ fuel Hfuel) as [HFi _].
    destruct (HFi r aux) as [(q & t & q' & x & bb & H & X1 & X2 & X3 & _)|(bb & H & X)]; [|eauto].
    exfalso. cbv zeta in X2, X3. rewrite RV in X2, X3. apply (HUn v t q'); try assumption. eapply nth_error_In; exact X1.
  - pose proof PI_RGT_0 as P0.
    replace (3 / 4 * PI) with ((2 * PI - 0) * (sin (PI / 3) * sin (PI / 3) - sin 0 * sin 0) / 2).
    2:{ pose proof (sin2_cos2 (PI / 3)) as Q. unfold Rsqr in Q. rewrite cos_PI3 in Q. rewrite sin_0. replace (sin (PI / 3) * sin (PI / 3)) with (3 / 4) by lra. field. }
    apply (C84_patch _ _ _ _ 0 (PI / 3) 0 (2 * PI) (fun _ => true)); try assumption; try lra.
    + intros phi Hp. split; [reflexivity|lra].
    + intros theta phi Ht Hp N1 N2. unfold patch, box. cbn [andb dir_to_bin two_caps].
      assert (VZ : vz (towards (cross e2 (direction sensor_top)) e2 (direction sensor_top) theta phi) = cos theta).
      { rewrite <- (proj2 (towards_facts _ _ _ theta phi FR)). set (w := towards _ _ _ _ _). destruct w as [x y z]. unfold sensor_top, direction, up. vunf. change R in x, y, z. ring. }
      rewrite VZ. destruct (Rlt_dec 0 theta); [|lra]. rewrite <- cos_PI3.
      destruct (Rlt_dec (cos (PI / 3)) (cos theta)) as [L|L], (Rlt_dec theta (PI / 3)) as [M|M]; cbn [Nat.eqb]; try reflexivity; exfalso.
      * apply M. apply cos_lt_inv; lra.
      * apply L. apply cos_decreasing_1; lra.
Qed.
