(** * Properties C74 and C75: what mirrors and panes of glass show (real arithmetic) *)
From Coq Require Import Permutation.
From Verif Require Import NumR Geometry Triangle Sphere Colour Ray Bvh BvhProofs Material Scene Samplers Primitives RayTracer Camera Render
  TracerProofs TracerSafe TracerScenes TracerLone TracerAux SpecColour SpecGeom SpecBvh SpecScene TriangleProofs BvhReal BvhQuery SceneProofs SpecOptics MaterialProofs
  P_Triangle P_Frame P_Bvh P_Material P_Tracer P_Camera SpecTracer SpecDraws P_Draws DaylightReal P_Render ColourProofs TracerCorridor BvhExamples P_Radiant.
Open Scope R_scope.

(** ** C74: a ray that meets a mirror brings what the reflected ray brings, whatever else is in the scene *)
Definition mirrored_ray (r1 q : @Ray NumR) : Prop :=
  dir_of q = mirror_direction (dir_of r1) (normal_of r1) /\ start_of q = plus (point_of r1) (times (1 / 100000) (normal_of r1)).
Theorem C74_mirror : forall (E : @Ext NumR) (RG : Gen NumR) (GO : @Geo NumR) h s0, externals_ok E ->
  play scene_new h = Ret s0 -> manageable s0 -> flat_or_distant h ->
  exists s, made h s /\ forall (c : @Tracer NumR) r aux g nest fuel i r1 (tint : SpecR), (2 * length (a_tri (sc_arrays s0)) <= fuel)%nat ->
    unit (dir_of r) -> (r_depth r <= max_depth c)%nat -> meets fuel s r i r1 -> facing s r1 i (Mirror tint) ->
    exists q aux1, mirrored_ray r1 q /\ unit (dir_of q) /\ dot (dir_of q) (normal_of r1) = - dot (dir_of r) (normal_of r1) /\
      (r_depth q = r_depth r \/ r_depth q = S (r_depth r)) /\ r_refraction_index q = r_refraction_index r /\ r_colour q = r_colour r /\
      match trace_ray nest fuel c s q aux1 (snd (gen g)), trace_ray (S nest) fuel c s r aux g with
      | Ret (li, _, _, _, g'), Ret (li', _, _, _, g'') => li' = li /\ g'' = g'
      | Crash, Crash | Stuck, Stuck => True
      | _, _ => False
      end.
Proof.
  intros E RG GO h s0 HE HP HM HFl. destruct (rebuilt (HE := HE) h s0 HP HM) as (s & HB & E1 & _ & _ & _ & _ & Ha & Hrec & _ & HQ).
  exists s. split; [exists s0; split; assumption|]. intros c r aux g nest fuel i r1 tint Hfuel U Hdep (z & ax & ax' & CR & ->) (kk & K1 & K2). destruct (HQ fuel Hfuel) as [HFi _].
  cbn [trace_ray]. pose proof (cast_alike fuel s r ax (h_nodes aux)) as AL. rewrite CR in AL.
  destruct (HFi r (h_nodes aux)) as [(j & t & dd & x & nd & CR' & X1 & X2 & X3 & X4 & X5 & X6 & _)|(nd & CR' & _)]; rewrite CR' in AL; cbn [alike fst] in AL; [|discriminate].
  injection AL as -> ->. rewrite CR'. cbn [obind]. cbv zeta. rewrite Nat2Z.id in *.
  destruct (hit_normal_oriented _ _ _ X5) as [ON NS]. destruct (C11_hit_normal _ _ _ X5) as (Un & Dn & O1 & O2 & _).
  unfold point_of, normal_of, mirrored_ray, side_hit in *. cbn [r_interaction set_interaction] in *.
  assert (HMt : hit_material s (set_interaction r x) j = Ret (Some (Mirror tint))).
  { unfold hit_material. cbn [r_interaction set_interaction]. destruct K2 as [[-> ->]|[-> ->]]; cbn [ret_opt obind]; rewrite K1; reflexivity. }
  rewrite HMt. cbn [obind emits_light specular_only]. change (get_triad (set_interaction r x)) with (x_point x, i_normal (x_shading x), i_dpdu (x_shading x), i_dpdv (x_shading x)). cbv iota beta. change (r_depth (set_interaction r x)) with (r_depth r).
  destruct (Nat.ltb_spec (max_depth c) (r_depth r)); [lia|].
  rewrite (flat_corners s Ha _ Hrec HFl j t X1). cbn [ret_opt obind]. change (r_interaction (set_interaction r x)) with x. set (r2 := set_shading _ _).
  assert (D2 : dir_of r2 = dir_of r) by reflexivity. set (n := i_normal (x_shading x)) in *.
  destruct (C24_mirror_tint_refuted tint n (x_point x) r2) as [(ray1 & GP & D1) _]; [rewrite D2; exact U|exact Un|rewrite D2, dot_comm; apply Rlt_not_eq; exact Dn|].
  assert (U2 : unit (dir_of r2)) by (rewrite D2; exact U).
  destruct (C18_reflected_paths _ _ _ _ _ _ U2 Un GP) as (ray1' & v1 & Q & _ & ST & RI & RC & RD). injection Q as <- <-.
  destruct (C18_reflection (dir_of r2) n U2 Un) as (M1 & _ & M2 & _).
  unfold specular_bounce. rewrite GP. cbn [obind specular_path].
  destruct (gen g) as [q1 g1] eqn:Hg. cbn [snd]. cbv zeta. set (q := if @fltb NumR q1 (count_specular_bounce c) then set_depth ray1 (S (r_depth ray1)) else ray1).
  assert (QD : dir_of q = dir_of ray1 /\ start_of q = start_of ray1 /\ (r_depth q = r_depth r \/ r_depth q = S (r_depth r)) /\ r_refraction_index q = r_refraction_index r /\ r_colour q = r_colour r).
  { unfold q. rewrite RD. destruct (fltb _ _); (split; [reflexivity|]; split; [reflexivity|]); cbn [r_depth set_depth r_refraction_index r_colour]; rewrite ?RD, ?RI, ?RC; (split; [first [left; reflexivity|right; reflexivity]|split; reflexivity]). }
  clearbody q. destruct QD as (Q1 & Q2 & Q3 & Q4 & Q5).
  match goal with |- context [obind (trace_ray nest fuel c s q ?a g1)] => exists q, a end.
  split; [rewrite Q1, Q2, D1, D2; split; [reflexivity|exact ST]|]. rewrite Q1, D1. rewrite D2 in *. split; [exact M1|]. split; [exact M2|]. split; [exact Q3|]. split; [exact Q4|]. split; [exact Q5|].
  destruct (trace_ray nest fuel c s q _ g1) as [[[[[li pdf] r'] aux'] g']| |]; cbn [obind]; [|exact I|exact I].
  split; [|reflexivity]. clear. apply spec_ext; unfold sadd, smul, smap2, ONE, BLACK; cbn [sr sg sb]; rsimp; destruct li as [a b0 c0]; cbn [sr sg sb]; change R in a; change R in b0; change R in c0; match goal with |- ?u = ?v => change (@eq R u v) end; field.
Qed.
Print Assumptions C74_mirror.

(** ** C75: a pane of glass under the sky shows the sky behind it, dimmed, and the reflection of the sky in front of it *)
(** reflectance and transmittance of a pane whose faces reflect as Fresnel's equations say and that transmits the share [colour] of the light
    at normal incidence inside: the sums over all internal reflections, for light that is not polarised *)
Definition pane_optics (colour : SpecR) (ri cosine : R) (refl trans : SpecR) : Prop :=
  exists c2 rs rp : R, 0 < c2 <= 1 /\ snell 1 cosine ri c2 /\ rs = R_s 1 cosine ri c2 /\ rp = R_p 1 cosine ri c2 /\
    (forall ch : SpecR -> R, In ch [sr (N := NumR); sg (N := NumR); sb (N := NumR)] ->
      let tau := Rpowf (ch colour) (1 / c2) in
      exists Ts Tp Rs_ Rp_,
        infinite_sum (fun k => (1 - rs) * tau * (rs * tau) ^ (2 * k) * (1 - rs)) Ts /\
        infinite_sum (fun k => (1 - rp) * tau * (rp * tau) ^ (2 * k) * (1 - rp)) Tp /\
        infinite_sum (fun k => (1 - rs) * (tau * rs * tau) * (rs * tau) ^ (2 * k) * (1 - rs)) Rs_ /\
        infinite_sum (fun k => (1 - rp) * (tau * rp * tau) * (rp * tau) ^ (2 * k) * (1 - rp)) Rp_ /\
        ch trans = (Ts + Tp) / 2 /\ ch refl = ((rs + Rs_) + (rp + Rp_)) / 2).
Definition window (t : TriR) (colour : SpecR) (ri : R) (sky : VecR -> R) : list (@op NumR) :=
  [AddMaterial (Glass colour ri); AddObject 0 0 (PTriangle t); SetSky (Some sky)].
Lemma window_plays (E : @Ext NumR) t colour (ri : R) sky : exists s0, play scene_new (window t colour ri sky) = Ret s0 /\ manageable s0 /\ length (a_tri (sc_arrays s0)) = 1%nat /\
  sc_materials s0 = [Glass colour ri] /\ sc_sky s0 = Some sky /\ sc_sky_colour s0 = None.
Proof.
  unfold window. cbn [play step push_material fst obind]. unfold push_object. cbn. eexists. split; [reflexivity|].
  split; [split; [cbn; lia|apply uncrowded_few; cbn; lia]|]. repeat split.
Qed.
Theorem C75_pane : forall (E : @Ext NumR) (RG : Gen NumR) (GO : @Geo NumR) (t : TriR) (colour : SpecR) (ri : R) (sky : VecR -> R), externals_ok E ->
  in_range 0 1 colour -> 1 / 10 ^ 15 <= smax colour -> 1 <= ri ->
  exists s, made (window t colour ri sky) s /\ forall (c : @Tracer NumR) nest fuel r aux g d, (2 <= fuel)%nat -> (2 <= nest)%nat -> (r_depth r <= max_depth c)%nat ->
    unit (dir_of r) -> crosses (r_geometry r) t d -> in_sight (r_geometry r) d ->
    exists li pdf r' aux' g' refl trans, let n := plane_normal t in let v := dir_of r in
      trace_ray nest fuel c s r aux g = Ret (li, pdf, r', aux', g') /\ pane_optics colour ri (Rabs (dot n v)) refl trans /\
      forall ch : SpecR -> R, In ch [sr (N := NumR); sg (N := NumR); sb (N := NumR)] ->
        ch li = ch refl * sky (minus v (times (2 * dot v n) n)) + ch trans * sky v.
Proof.
  intros E RG GO t colour ri sky HE Hcol Hmax Hri.
  destruct (window_plays E t colour ri sky) as (s0 & HP & HM & Hlen & H1 & H2 & H3).
  destruct (rebuilt (HE := HE) _ s0 HP HM) as (s & HB & E1 & _ & _ & E4 & E5 & Ha & Hrec & Hl & HQ). rewrite H1 in E1. rewrite H2 in E4. rewrite H3 in E5.
  exists s. split; [exists s0; split; assumption|]. intros c nest fuel r aux g d Hfuel Hnest Hd U HC HI. rewrite Hlen in HQ. destruct (HQ fuel ltac:(lia)) as [HFi _].
  assert (HFl : flat_or_distant (window t colour ri sky)). { intros f b p H. cbn in H. destruct H as [H|[]]. injection H as <- <- <-. left. eexists. reflexivity. }
  assert (RT : forall j t', nth_error (a_tri (sc_arrays s)) j = Some t' -> t' = t /\ j = 0%nat /\ nth_error (a_front (sc_arrays s)) j = Some 0%nat /\ nth_error (a_back (sc_arrays s)) j = Some 0%nat).
  { intros j t' Hj. destruct (record_at (sc_arrays s) j t' Ha Hj) as (f & b & nn & Hf & Hb & _ & Hin).
    assert (j = 0)%nat by (assert (j < length (a_tri (sc_arrays s)))%nat by (apply nth_error_Some; congruence); lia).
    eapply Permutation_in in Hin; [|exact Hrec]. cbn in Hin. destruct Hin as [Q|[]]. injection Q as <- <- <- <-. auto. }
  assert (TIn : In t (a_tri (sc_arrays s))).
  { destruct (a_tri (sc_arrays s)) as [|t0 l] eqn:ET; [cbn in Hl; lia|]. destruct (RT 0%nat t0 eq_refl) as (-> & _). left; reflexivity. }
  assert (SKY : forall nst q ax gg, (0 < nst)%nat -> (forall dd, ~ touches (r_geometry q) t dd) -> exists pdf q' ax' , trace_ray nst fuel c s q ax gg = Ret (smulf (gray 1) (sky (dir_of q)), pdf, q', ax', gg)).
  { intros nst q ax gg Hnst Hno. destruct nst as [|nst]; [lia|]. cbn [trace_ray].
    destruct (HFi q (h_nodes ax)) as [(j & t' & dd & x & nd & _ & X1 & X2 & _)|(nd & CR & _)].
    { exfalso. destruct (RT j t' X1) as (-> & _). exact (Hno dd X2). }
    rewrite CR. cbn [obind]. cbv zeta. unfold see_sky. rewrite E4, E5. replace (@gray NumR f1) with (@gray NumR 1) by (unfold f1; cbn [flit NumR]; f_equal; field). eauto. }
  destruct nest as [|nest]; [lia|]. cbn [trace_ray].
  destruct (HFi r (h_nodes aux)) as [(j & t' & dd & x & nd & CR & X1 & X2 & X3 & X4 & X5 & X6 & _)|(nd & _ & Hno)].
  2:{ exfalso. apply (Hno t d TIn). split; assumption. }
  destruct (RT j t' X1) as (-> & -> & RF & RB). rewrite CR. cbn [obind]. cbv zeta. rewrite Nat2Z.id.
  destruct (hit_normal_oriented _ _ _ X5) as [ON NS]. destruct (C11_hit_normal _ _ _ X5) as (Un & Dn & O1 & O2 & _).
  assert (HMt : hit_material s (set_interaction r x) 0 = Ret (Some (Glass colour ri))).
  { unfold hit_material. cbn [r_interaction set_interaction]. rewrite RF, RB, E1. cbn [nth_error ret_opt obind]. destruct (i_side (x_shading x)); [reflexivity|reflexivity|contradiction]. }
  rewrite HMt. cbn [obind emits_light specular_only].
  change (get_triad (set_interaction r x)) with (x_point x, i_normal (x_shading x), i_dpdu (x_shading x), i_dpdv (x_shading x)). cbv iota beta.
  change (r_depth (set_interaction r x)) with (r_depth r). destruct (Nat.ltb_spec (max_depth c) (r_depth r)); [lia|].
  rewrite (flat_corners s Ha _ Hrec HFl 0 t X1). cbn [ret_opt obind]. change (r_interaction (set_interaction r x)) with x. set (r2 := set_shading _ _).
  assert (G2 : r_geometry r2 = r_geometry r) by reflexivity. clearbody r2.
  set (n := i_normal (x_shading x)) in *. assert (XP : x_point x = along (r_geometry r) dd) by exact (X6 U).
  destruct X2 as (_ & _ & u0 & v0 & X2 & _). rewrite X2 in XP.
  assert (D2 : dir_of r2 = dir_of r) by (unfold dir_of; rewrite G2; reflexivity).
  assert (U2 : unit (dir_of r2)) by (rewrite D2; exact U). assert (L2 : dot (dir_of r2) n < 0) by (rewrite D2, dot_comm; exact Dn).
  destruct (get_possible_paths (Glass colour ri) n (x_point x) r2) as [[p1 p2]| |] eqn:GP.
  2,3: exfalso; cbn [get_possible_paths] in GP; discriminate.
  destruct (C18_reflected_paths _ _ _ _ _ _ U2 Un GP) as (ray1 & v1 & -> & D1 & ST1 & _).
  destruct (C23_paths colour ri n (x_point x) r2 _ _ GP) as (refl & trans & GT & (ray1' & Q1) & HP2 & HNone). injection Q1 as <- <-. rename v1 into refl.
  assert (PN : dot n (dir_of r) <> 0) by (apply Rlt_not_eq; exact Dn).
  assert (ABS : Rabs (dot n (dir_of r)) = Rabs (dot (plane_normal t) (dir_of r)) /\ mirror_direction (dir_of r) n = minus (dir_of r) (times (2 * dot (dir_of r) (plane_normal t)) (plane_normal t))).
  { rewrite (mirror_value (dir_of r) n U Un). unfold mirrored. rewrite ON. fold (dir_of r) in *. generalize (dir_of r) (plane_normal t). clear. intros v w. unfold oriented. destruct (i_side (x_shading x)); (split; [|]).
    all: try (dvec; apply vec_ext; vunf; ring).
    all: try reflexivity.
    all: rewrite <- Rabs_Ropp; f_equal; dvec; vunf; ring. }
  destruct ABS as [ABS MIR]. rewrite D2 in *.
  assert (PO : pane_optics colour ri (Rabs (dot (plane_normal t) (dir_of r))) refl trans).
  { rewrite <- ABS. exact (C23_slab_series colour ri n (dir_of r) _ refl trans Hcol Hri Un U PN Hmax GT). }
  destruct (C23_energy colour ri n (dir_of r) _ refl trans Hcol Hri Un U PN GT) as (_ & (T1 & T2 & T3) & _).
  assert (HR1 : forall dd, ~ touches (r_geometry ray1) t dd).
  { intros dd'. apply (leaves_for_good t n u0 v0 (1/100000)); try assumption; [fold (start_of ray1); rewrite ST1, XP; reflexivity| |lra].
    fold (dir_of ray1). rewrite D1. destruct (C18_reflection (dir_of r) n U Un) as (_ & _ & K & _). rewrite K. lra. }
  unfold specular_bounce. rewrite GP. cbn [obind specular_path].
  pose proof (SKY nest) as SKY1. destruct (gen g) as [q1 g1]. cbv zeta.
  assert (GG : forall (b : bool) q, r_geometry (if b then set_depth q (S (r_depth q)) else q) = r_geometry q) by (intros [] q; reflexivity).
  match goal with |- context [trace_ray nest fuel c s ?q ?a g1] => destruct (SKY1 q a g1 ltac:(lia)) as (pd1 & qq1 & a1 & TR1) end.
  { rewrite GG. exact HR1. }
  rewrite TR1. clear TR1. unfold dir_of at 1. rewrite GG. fold (dir_of ray1). rewrite D1, MIR. cbn [obind].
  destruct HP2 as [-> | (ray2 & -> & DD2 & ST2 & _)]; cbn [specular_path obind].
  - eexists _, _, _, _, _, refl, trans. split; [reflexivity|]. split; [exact PO|].
    assert (Z : sr trans = 0 /\ sg trans = 0 /\ sb trans = 0).
    { pose proof (proj1 HNone eq_refl) as RZ. rewrite radiance_value in RZ. destruct trans as [a b0 c0]. cbn [sr sg sb] in *. change R in a. change R in b0. change R in c0. repeat split; lra. }
    destruct Z as (Z1 & Z2 & Z3). intros ch [<-|[<-|[<-|[]]]]; [rewrite Z1|rewrite Z2|rewrite Z3]; clear; destruct refl as [a b0 c0]; change R in a; change R in b0; change R in c0;
      unfold sadd, smul, smulf, smap, smap2, gray, BLACK; cbn [sr sg sb]; rsimp; match goal with |- ?u = ?w => change (@eq R u w) end; generalize (sky (minus (dir_of r) (times (2 * dot (dir_of r) (plane_normal t)) (plane_normal t)))) (sky (dir_of r)); intros y1 y2; change R in y1; change R in y2; field.
  - assert (HR2 : forall dd, ~ touches (r_geometry ray2) t dd).
    { intros dd'. apply (leaves_for_good t n u0 v0 (-(1/100000))); try assumption; [fold (start_of ray2); rewrite ST2, XP; clear; destruct (bary t u0 v0), n; apply vec_ext; vunf; ring| |lra].
      fold (dir_of ray2). rewrite DD2. lra. }
    destruct (gen g1) as [q2 g2]. cbv zeta.
    match goal with |- context [trace_ray nest fuel c s ?q ?a g2] => destruct (SKY1 q a g2 ltac:(lia)) as (pd2 & qq2 & a2 & TR2) end.
    { rewrite GG. exact HR2. }
    rewrite TR2. clear TR2. unfold dir_of at 1. rewrite GG. fold (dir_of ray2). rewrite DD2. cbn [obind].
    eexists _, _, _, _, _, refl, trans. split; [reflexivity|]. split; [exact PO|].
    intros ch [<-|[<-|[<-|[]]]]; clear; destruct refl as [a b0 c0], trans as [a' b' c']; change R in a; change R in b0; change R in c0; change R in a'; change R in b'; change R in c';
      unfold sadd, smul, smulf, smap, smap2, gray, BLACK; cbn [sr sg sb]; rsimp; match goal with |- ?u = ?w => change (@eq R u w) end; generalize (sky (minus (dir_of r) (times (2 * dot (dir_of r) (plane_normal t)) (plane_normal t)))) (sky (dir_of r)); intros y1 y2; change R in y1; change R in y2; field.
Qed.
Print Assumptions C75_pane.

(* a mirror on the floor under a sky: a ray that goes down meets the mirror *)
Definition mirror_floor : list (@op NumR) := [AddMaterial (Mirror (gray (9/10 : R))); AddObject 0 0 (PTriangle (plate 0)); SetSky (Some (fun d => Rabs (vz d)))].
Example C74_hyp : exists s0, play (E := ext_example) scene_new mirror_floor = Ret s0 /\ manageable s0 /\ flat_or_distant mirror_floor /\ forall s, made (E := ext_example) mirror_floor s ->
  forall (r : @Ray NumR) fuel, (2 <= fuel)%nat -> r_geometry r = down (1/4) (1/4) 1 ->
    unit (dir_of r) /\ exists i r1, meets (E := ext_example) fuel s r i r1 /\ facing s r1 i (Mirror (gray (9/10 : R))).
Proof.
  assert (PL : exists s0, play (E := ext_example) scene_new mirror_floor = Ret s0 /\ manageable s0 /\ length (a_tri (sc_arrays s0)) = 1%nat /\ sc_materials s0 = [Mirror (gray (9/10 : R))]).
  { unfold mirror_floor. cbn [play step push_material fst obind]. unfold push_object. cbn. eexists. split; [reflexivity|].
    split; [split; [cbn; lia|apply uncrowded_few; cbn; lia]|]. repeat split. }
  destruct PL as (s0 & HP & HM & Hlen & H1). exists s0. split; [exact HP|]. split; [exact HM|].
  assert (HFl : flat_or_distant mirror_floor). { intros f b p H. cbn in H. destruct H as [H|[]]. injection H as <- <- <-. left. eexists. reflexivity. }
  split; [exact HFl|]. intros s (s0' & HP' & HB) r fuel Hf HR. rewrite HP in HP'. injection HP' as <-.
  destruct (rebuilt (HE := ext_example_ok) _ s0 HP HM) as (s' & HB' & E1 & _ & _ & _ & _ & Ha & Hrec & Hl & HQ). rewrite HB in HB'. injection HB' as <-. rewrite H1 in E1. rewrite Hlen in HQ, Hl.
  destruct (HQ fuel ltac:(lia)) as [HFi _]. destruct C47_never_returns_hyp as (_ & W1 & W2 & W3).
  unfold dir_of. rewrite HR. split; [exact W1|].
  assert (RT : forall j t', nth_error (a_tri (sc_arrays s)) j = Some t' -> t' = plate 0 /\ j = 0%nat /\ nth_error (a_front (sc_arrays s)) j = Some 0%nat /\ nth_error (a_back (sc_arrays s)) j = Some 0%nat).
  { intros j t' Hj. destruct (record_at (sc_arrays s) j t' Ha Hj) as (f & b & nn & Hf' & Hb & _ & Hin).
    assert (j = 0)%nat by (assert (j < length (a_tri (sc_arrays s)))%nat by (apply nth_error_Some; congruence); lia).
    eapply Permutation_in in Hin; [|exact Hrec]. cbn in Hin. destruct Hin as [Q|[]]. injection Q as <- <- <- <-. auto. }
  assert (TIn : In (plate 0) (a_tri (sc_arrays s))).
  { destruct (a_tri (sc_arrays s)) as [|t0 l] eqn:ET; [cbn in Hl; lia|]. destruct (RT 0%nat t0 eq_refl) as (-> & _). left; reflexivity. }
  destruct (HFi r []) as [(j & t' & dd & x & nd & CR & X1 & X2 & X3 & X4 & X5 & X6 & _)|(nd & _ & Hno)].
  2:{ exfalso. apply (Hno (plate 0) 1 TIn). rewrite HR. split; assumption. }
  destruct (RT j t' X1) as (-> & -> & RF & RB). destruct (hit_normal_oriented _ _ _ X5) as [_ NS].
  exists 0%nat, (set_interaction r x). split; [exists (Z.of_nat 0), [], nd; split; [exact CR|reflexivity]|].
  exists 0%nat. rewrite E1. split; [reflexivity|]. unfold side_hit. cbn [r_interaction set_interaction]. destruct (i_side (x_shading x)); [left|right|contradiction]; split; auto.
Qed.

(* window glass seen from straight above *)
Example C75_hyp : in_range 0 1 (gray (7/8 : R)) /\ 1 / 10 ^ 15 <= smax (gray (7/8 : R)) /\ 1 <= 3 / 2 /\
  unit (direction (down (1/4) (1/4) 1)) /\ crosses (down (1/4) (1/4) 1) (plate 0) 1 /\ in_sight (down (1/4) (1/4) 1) 1.
Proof.
  destruct C47_never_returns_hyp as (_ & W1 & W2 & W3). split; [unfold in_range, gray; cbn [sr sg sb]; lra|].
  split; [|split; [lra|split; [exact W1|split; [exact W2|exact W3]]]].
  unfold smax, gray; cbn [sr sg sb]. rsimp. repeat (destruct (Rltb _ _)); rsimp; lra.
Qed.
