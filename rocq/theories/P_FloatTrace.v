(** * P_FloatTrace: panics of the tracer, in any arithmetic and in binary64

    The theorems of P_Tracer and P_Lights about panics are about exact reals, where there is no NaN.  Here: what holds in every
    arithmetic whose [<] is a strict order - binary64 with rounding, infinities and NaN is one - and a panic that only binary64 shows. *)
From Coq Require Import Permutation SpecFloat.
From Verif Require Import Num NumSF FloatOps Geometry Triangle Sphere Colour Ray Bvh BvhProofs BvhOrder BvhExamples BvhFloat Material Scene Samplers Primitives RayTracer
  TracerProofs TracerSafe TracerAny SpecScene SceneProofs P_Float.

(** equality by computation; the kernel compares both sides *)
Ltac vm_eq := match goal with |- @eq ?A _ ?b => vm_cast_no_check (@eq_refl A b) end.

(** ** C80 - matte surfaces, mirrors, panes and lamps never panic, whatever the rounding *)
Theorem C80_no_panic : forall (N : Num) (T : Trig N) (E : Ext) (RG : Gen N) (GO : Geo) h s0 s, strict_order N -> perm_sorts E ->
  play scene_new h = Ret s0 -> rebuild_accelerator s0 = Ret s -> (Z.of_nat (length (a_tri (sc_arrays s0))) < 2 ^ 15)%Z -> samplable_any h ->
  Forall never_glossy (sc_materials s0) ->
  forall c r aux g nest fuel, (max_depth c < length (h_rays aux))%nat -> (2 * length (a_tri (sc_arrays s0)) <= fuel)%nat ->
  trace_ray nest fuel c s r aux g <> Crash.
Proof.
  intros N T E RG GO h s0 s HO HP H HB Hn HS HM c r aux g nest fuel Hk Hf.
  destruct (any_prepared HO HP h s0 s H HB Hn HS) as (E1 & _ & _ & _ & HPr).
  apply trace_ray_safe_when; [apply HPr; exact Hf| |exact Hk]. intros m Hin HSc. apply never_glossy_safe; [exact HSc|].
  rewrite Forall_forall in HM. apply HM. rewrite <- E1. exact Hin.
Qed.
Print Assumptions C80_no_panic.

(** without lamps and sky the trace even returns a colour, in bounded time, when specular bounces are counted *)
Theorem C80_dark_returns : forall (N : Num) (T : Trig N) (E : Ext) (RG : Gen N) (GO : Geo) h s0 s, strict_order N -> perm_sorts E ->
  play scene_new h = Ret s0 -> rebuild_accelerator s0 = Ret s -> (Z.of_nat (length (a_tri (sc_arrays s0))) < 2 ^ 15)%Z -> samplable_any h ->
  dark s0 ->
  forall c, (forall g, fltb (fst (gen g)) (count_specular_bounce c) = true) ->
  forall r aux g nest fuel, (max_depth c < length (h_rays aux))%nat -> (max_depth c + 2 <= nest)%nat ->
    (2 * length (a_tri (sc_arrays s0)) <= fuel)%nat -> (n_ambient_samples c <= fuel)%nat -> (0 < fuel)%nat ->
  exists li r' aux' g', trace_ray nest fuel c s r aux g = Ret (li, f0, r', aux', g').
Proof.
  intros N T E RG GO h s0 s HO HP H HB Hn HS HD c HC r aux g nest fuel Hk Hnest Hf1 Hf2 Hf3.
  destruct (any_prepared HO HP h s0 s H HB Hn HS) as (E1 & E2 & E3 & E4 & HPr).
  apply trace_ray_returns; try assumption; try lia; [apply (proj1 HO)|apply HPr; exact Hf1|].
  destruct HD as (D1 & D2 & D3 & D4). unfold dark. rewrite E1, E2, E3, E4. auto.
Qed.
Print Assumptions C80_dark_returns.

(** in binary64 with scenes of reasonable coordinates the accelerator exists, so nothing is left to assume of it *)
Theorem C80_binary64 : forall (T : Trig NumSF) (E : @Ext NumSF) (RG : Gen NumSF) (GO : @Geo NumSF) h (s0 : @Scene NumSF), sort_ok64 E ->
  play scene_new h = Ret s0 -> Forall reasonable_triangle (a_tri (sc_arrays s0)) ->
  (Z.of_nat (length (a_tri (sc_arrays s0))) < 2 ^ 15)%Z -> samplable_any h -> Forall never_glossy (sc_materials s0) ->
  exists s, rebuild_accelerator s0 = Ret s /\
  forall (c : @Tracer NumSF) r aux g nest fuel, (max_depth c < length (h_rays aux))%nat -> (2 * length (a_tri (sc_arrays s0)) <= fuel)%nat ->
  trace_ray nest fuel c s r aux g <> Crash.
Proof.
  intros T E RG GO h s0 HE H HR Hn HS HM. pose proof HE as [HP _].
  assert (Ha : aligned (sc_arrays s0)) by apply (inv_play HP h [] scene_new s0 inv_new H).
  destruct (C02_binary64 E HE (sc_arrays s0) Ha HR _ (le_n _)) as (nodes & a' & B & _).
  exists (set_accelerator (set_arrays s0 a') (Some nodes)).
  assert (HB : rebuild_accelerator s0 = Ret (set_accelerator (set_arrays s0 a') (Some nodes))).
  { unfold rebuild_accelerator, install_accelerator. rewrite B. reflexivity. }
  split; [exact HB|]. intros. eapply C80_no_panic; try eassumption. exact strict_order_SF.
Qed.
Print Assumptions C80_binary64.

Definition floor64 : @Triangle NumSF :=
  mkTri (@V3 NumSF (d64 0) (d64 0) (d64 0)) (@V3 NumSF (d64 1) (d64 0) (d64 0)) (@V3 NumSF (d64 0) (d64 1) (d64 0)).
Definition grey64 : @Spectrum NumSF := @gray NumSF (@flit NumSF 1 2).
Definition furnished64 : list (@op NumSF) :=
  [AddMaterial (Plastic grey64 (d64 0) (d64 0)); AddMaterial (Mirror grey64); AddMaterial (Light grey64);
   AddObject 0 1 (@PTriangle NumSF floor64); AddObject 1 1 (@PTriangle NumSF (tri64 3)); AddObject 2 2 (@PTriangle NumSF (tri64 7))].
(** a generator that plays the given numbers, then zeros *)
Definition playing : Gen NumSF := @Build_Gen NumSF (list spec_float) (fun l => match l with [] => (d64 0, []) | x :: l => (x, l) end).
(* a generator of numbers that are not negative *)
Definition sixteenths : Gen NumSF := @Build_Gen NumSF nat (fun n => (@fdiv NumSF (d64 (Z.of_nat n mod 16)) (d64 16), S n)).
Definition pi64 : spec_float := S754_finite false 7074237752028440 (-51).
Definition ln_eighth : spec_float := S754_finite true 4682486076124019 (-51).
(** a stand-in for the system's functions, right at the few places used below *)
Definition trig64 : Trig NumSF := @Build_Trig NumSF pi64
  (fun x => if @feqb NumSF x (d64 0) then d64 1 else d64 0) (fun x => if @feqb NumSF x (d64 0) then x else d64 0)
  (fun x => x) (fun x => x) (fun _ => d64 1) (fun x => if @feqb NumSF x (@flit NumSF 1 8) then ln_eighth else d64 0) (fun x _ => x).
Definition furnished : @Scene NumSF := match play (T := trig64) (E := ext64) scene_new furnished64 with Ret s => s | _ => scene_new end.
Example C80_hyp : play (T := trig64) (E := ext64) scene_new furnished64 = Ret furnished /\ Forall reasonable_triangle (a_tri (sc_arrays furnished)) /\
  length (a_tri (sc_arrays furnished)) = 3%nat /\ (forall GO : @Geo NumSF, samplable_any furnished64) /\
  Forall (@never_glossy NumSF sixteenths) (sc_materials furnished) /\ length (sc_lights furnished) = 1%nat.
Proof.
  assert (A : a_tri (sc_arrays furnished) = [floor64; tri64 3; tri64 7]) by vm_eq.
  assert (M : sc_materials furnished = [Plastic grey64 (d64 0) (d64 0); Mirror grey64; Light grey64]) by vm_eq.
  split; [vm_eq|]. rewrite A, M. split.
  { repeat (constructor; [repeat split; apply d64_finite; lia|]). constructor. }
  split; [reflexivity|]. split.
  { intros GO f b p Hp. repeat (destruct Hp as [Q|Hp]; [injection Q as <- <- <-; split; [discriminate|intros d Hd; discriminate]|]). destruct Hp. }
  split; [|vm_eq]. constructor; [|repeat constructor].
  intros n. cbn [gen sixteenths fst]. pose proof (Z.mod_pos_bound (Z.of_nat n) 16 ltac:(lia)) as B. generalize dependent (Z.of_nat n mod 16)%Z. intros z B.
  assert (C : forallb (fun k => negb (@fltb NumSF (@fdiv NumSF (d64 (Z.of_nat k)) (d64 16)) (d64 0))) (seq 0 16) = true) by (vm_compute; reflexivity).
  rewrite forallb_forall in C. specialize (C (Z.to_nat z)). rewrite Z2Nat.id in C by lia. apply Bool.negb_true_iff, C. apply in_seq. lia.
Qed.

(** ** C54 - the NaN check of the glossy model panics on a surface seen face on.

    A plastic floor of roughness 1 and specularity 5 %, looked at from straight above, and a run of the generator: the first number
    (0) chooses the glossy branch, the next two (0 and 1/8) the sample.  The sampled direction is the normal itself, so the half vector
    used by the model is zero, and 0/0 is NaN.  (In exact reals, where a quotient by zero is zero, nothing happens: this is why the
    theorems about panics of P_Tracer and P_Lights do not show it.) *)
Definition rough64 : @Material NumSF := Plastic grey64 (@flit NumSF 1 20) (d64 1).
Definition rough_floor : list (@op NumSF) := [AddMaterial rough64; AddObject 0 0 (@PTriangle NumSF floor64); Rebuild].
Definition from_above : @Ray3D NumSF :=
  mkRay3D (@V3 NumSF (@flit NumSF 1 4) (@flit NumSF 1 4) (d64 1)) (@V3 NumSF (d64 0) (d64 0) (@fneg NumSF (d64 1))).
Definition camera_ray : @Ray NumSF := let d := @ray_default NumSF in mkRay from_above (r_refraction_index d) (r_interaction d) 0 (d64 1) (r_colour d).
Definition n64 : @Vec NumSF := @V3 NumSF (d64 0) (d64 0) (d64 1).
Definition v64 : @Vec NumSF := @V3 NumSF (S754_zero true) (S754_zero true) (d64 1).

Section Face.
  Context {T : Trig NumSF} {E : @Ext NumSF} {GO : @Geo NumSF}.
  Hypothesis Hpi : @fpi NumSF T = pi64.
  Hypothesis Hcos : @fcos NumSF T (d64 0) = d64 1.
  Hypothesis Hsin : @fsin NumSF T (d64 0) = d64 0.
  Hypothesis Hln : @fln NumSF T (@flit NumSF 1 8) = ln_eighth.
  Let e1 : @Vec NumSF := @V3 NumSF (d64 1) (d64 0) (d64 0).
  Let e2 : @Vec NumSF := @V3 NumSF (d64 0) (d64 1) (d64 0).
  Let back_up : @Vec NumSF := vscale (direction from_above) (@fneg NumSF f1).
  Lemma face_direction : ward_direction n64 e1 e2 (d64 1) (d64 1) back_up (d64 0) (@flit NumSF 1 8) = v64.
  Proof.
    unfold ward_direction. cbv zeta. rewrite Hpi. change (@fmul NumSF (@fmul NumSF f2 pi64) (d64 0)) with (d64 0). rewrite Hcos, Hsin, Hln.
    vm_eq.
  Qed.
  Definition unlucky : @G NumSF playing := [d64 0; d64 0; @flit NumSF 1 8].
  Lemma face_panics fuel p (r : @Ray NumSF) : direction (r_geometry r) = direction from_above ->
    @sample_bsdf_draw NumSF T playing (S fuel) rough64 n64 e1 e2 p r unlucky = Crash.
  Proof.
    intros Hr. unfold sample_bsdf_draw, rough64, sample_ward_draw, unlucky. cbn [gen playing].
    change (@fltb NumSF (d64 0) (@flit NumSF 1 20)) with true. cbv iota. change (@rough NumSF (d64 1)) with (d64 1).
    cbn [ward_draw gen playing ward_loop]. cbn [set_ray3d r_geometry direction]. rewrite Hr.
    match goal with |- context [@ward_direction NumSF T ?a ?b ?c ?d ?e ?f ?g ?h] => replace (@ward_direction NumSF T a b c d e f g h) with v64 by (symmetry; exact face_direction) end. cbv zeta.
    change (@fltb NumSF (@f0 NumSF) (vdot v64 n64)) with true. cbn [orb].
    assert (W : exists x y, @evaluate_ward NumSF T n64 e1 e2 (@flit NumSF 1 20) (d64 1) (d64 1) (direction from_above) (vscale v64 (@fneg NumSF f1)) = (x, y) /\ x = S754_nan).
    { unfold evaluate_ward. cbv zeta. rewrite Hpi.
      change (@fltb NumSF (@flit NumSF 1 100000) (@flit NumSF 1 20)) with true. cbv iota.
      match goal with |- context [if ?b then _ else _] => change b with false end. cbv iota. do 2 eexists. split; [reflexivity|].
      match goal with |- @fmul NumSF ?a _ = _ => let v := eval vm_compute in a in replace a with v by (vm_compute; reflexivity) end. reflexivity. }
    destruct W as (x & y & HW & ->).
    match goal with |- context [@evaluate_ward NumSF T ?a ?b ?c ?d ?e ?f ?g ?h] => replace (@evaluate_ward NumSF T a b c d e f g h) with (S754_nan : @F NumSF, y) by (symmetry; exact HW) end.
    reflexivity.
  Qed.
  Definition rough_scene : @Scene NumSF :=
    mkScene (mkArr [floor64] [0%nat] [0%nat] [flat_norm]) [rough64] [] [] (Some [mkFlat (world_bounds floor64) 1 AX 0]) None None.
  Definition hit_ray64 : @Ray NumSF := match @cast_ray NumSF ext64 1 rough_scene camera_ray [] with Ret (_, r, _) => r | _ => camera_ray end.
  Hypothesis HB : forall r i, bbox_hit (world_bounds floor64) r i = true.
  Lemma face_cast fuel nodes : @cast_ray NumSF E (S fuel) rough_scene camera_ray nodes = Ret (Some 0%Z, hit_ray64, []).
  Proof.
    unfold cast_ray, rough_scene. cbn [sc_accelerator sc_arrays a_tri]. unfold intersect. cbv zeta. unfold isect_loop.
    match goal with |- context [nthZ ?l ?z] => change (nthZ l z) with (Some (mkFlat (world_bounds floor64) 1 AX 0)) end. cbv iota. cbn [f_bounds]. rewrite HB. vm_eq.
  Qed.
  Theorem face_trace (c : @Tracer NumSF) : max_depth c <> 0%nat -> n_ambient_samples c <> 0%nat ->
    play scene_new rough_floor = Ret rough_scene /\
    forall aux nest fuel, (0 < length (h_rays aux))%nat -> (1 <= nest)%nat -> (1 <= fuel)%nat ->
    @trace_ray NumSF T E playing GO nest fuel c rough_scene camera_ray aux unlucky = Crash.
  Proof.
    intros H1 H2. split; [vm_eq|]. intros aux [|nest] [|fuel] H3 H4 H5; try lia. cbn [trace_ray]. rewrite face_cast. cbn [obind]. cbv zeta.
    assert (M : hit_material rough_scene hit_ray64 (Z.to_nat 0) = Ret (Some rough64)) by vm_eq. rewrite M. cbn [obind].
    destruct (get_triad hit_ray64) as [[[p nm] a1] a2]. cbn [emits_light rough64]. assert (D0 : r_depth hit_ray64 = 0%nat) by vm_eq.
    rewrite D0. change (max_depth c <? 0)%nat with false. cbv iota. cbn [rough_scene sc_arrays a_norm nth_error Z.to_nat ret_opt obind specular_only].
    fold rough64. fold rough_scene. set (r2 := set_shading hit_ray64 _). unfold scatter.
    assert (TR : exists q, get_triad r2 = (q, n64, e1, e2)) by (exists (fst (fst (fst (get_triad r2)))); vm_eq). destruct TR as [q TR].
    assert (D2 : r_depth r2 = 0%nat) by vm_eq. assert (DIR : direction (r_geometry r2) = direction from_above) by vm_eq. clearbody r2.
    unfold draw_n_ambient_samples, get_n_ambient_samples. destruct (Nat.eqb_spec (max_depth c) 0); [lia|]. destruct (Nat.eqb_spec (n_ambient_samples c) 0); [lia|].
    rewrite D2. cbn [orb Nat.eqb]. unfold get_local_illumination, sample_light_array. cbn [rough_scene sc_lights sc_distant_lights]. rewrite TR. cbn [lights_loop obind].
    unfold get_global_illumination. destruct (Nat.eqb_spec (n_ambient_samples c) 0); [lia|]. rewrite TR. unfold store_ray. cbn [h_rays]. rewrite D2.
    destruct (Nat.ltb_spec 0 (length (h_rays aux))); [|lia]. cbn [obind ambient_loop]. destruct (Nat.ltb_spec 0 (n_ambient_samples c)); [|lia].
    rewrite face_panics by exact DIR. reflexivity.
  Qed.
End Face.

Theorem C54_nan_refuted : forall (T : Trig NumSF) (E : @Ext NumSF) (GO : @Geo NumSF) (c : @Tracer NumSF),
  @fpi NumSF T = pi64 -> @fcos NumSF T (d64 0) = d64 1 -> @fsin NumSF T (d64 0) = d64 0 -> @fln NumSF T (@flit NumSF 1 8) = ln_eighth ->
  (forall r i, bbox_hit (world_bounds floor64) r i = true) -> max_depth c <> 0%nat -> n_ambient_samples c <> 0%nat ->
  exists s, play scene_new rough_floor = Ret s /\
  forall aux nest fuel, (0 < length (h_rays aux))%nat -> (1 <= nest)%nat -> (1 <= fuel)%nat ->
  @trace_ray NumSF T E playing GO nest fuel c s camera_ray aux unlucky = Crash.
Proof. intros T E GO c H1 H2 H3 H4 H5 H6 H7. exists rough_scene. apply face_trace; assumption. Qed.
Print Assumptions C54_nan_refuted.
(* the hypotheses are met by the stand-in functions and the default configuration *)
Example C54_nan_hyp : @fpi NumSF trig64 = pi64 /\ @fcos NumSF trig64 (d64 0) = d64 1 /\ @fsin NumSF trig64 (d64 0) = d64 0 /\
  @fln NumSF trig64 (@flit NumSF 1 8) = ln_eighth /\ (forall r i, @bbox_hit NumSF ext64 (world_bounds floor64) r i = true) /\
  max_depth (@tracer_default NumSF) <> 0%nat /\ n_ambient_samples (@tracer_default NumSF) <> 0%nat.
Proof. split; [reflexivity|]. split; [vm_eq|]. split; [vm_eq|]. split; [vm_eq|]. split; [reflexivity|]. split; discriminate. Qed.
