(** * C61, C62: sfluxmtx from the text of the scene to the text of the matrix (real arithmetic) *)
From Verif Require Import NumR Text TextProofs HeaderProofs Geometry Triangle Colour ColourMatrix SpecMatrix SpecImage SpecDecimal MatrixProofs Ray Bvh Material Scene Image Camera RayTracer
  Daylight DaylightProofs DaylightReal Importers Radiance SpecRadiance RadianceProofs RadianceProofs2 Tools SpecTools ToolsProofs SpecGeom SpecBvh SpecScene SceneProofs TriangleProofs BvhProofs BvhReal BvhQuery BvhExamples
  TracerProofs TracerSafe TracerScenes TracerCorridor P_Matrix P_Radiance P_Triangle P_Bvh P_Scene P_Tracer P_Daylight P_Daylight2 Render RenderProofs P_Render P_Tools.
Open Scope R_scope.

(** The direction of a sensor is the unit vector along the three numbers given, if these are not all zero. *)
Theorem C61_directions : forall (parse : bytes -> option R) l ray, sensor_line (N := NumR) parse l ray ->
  exists ox oy oz dx dy dz, says_numbers parse l [ox; oy; oz; dx; dy; dz] /\ origin ray = pt ox oy oz /\
    ((dx <> 0 \/ dy <> 0 \/ dz <> 0) -> unit (direction ray) /\ exists k, 0 < k /\ pt dx dy dz = vscale (direction ray) k).
Proof.
  intros parse l ray [_ (ox & oy & oz & dx & dy & dz & H & ->)]. exists ox, oy, oz, dx, dy, dz. split; [exact H|]. split; [reflexivity|]. intros NZ.
  assert (P : 0 < dx * dx + dy * dy + dz * dz) by (destruct NZ as [Q|[Q|Q]]; pose proof (Rsqr_pos_lt _ Q); unfold Rsqr in *; nra).
  assert (HS : 0 < sqrt (dx * dx + dy * dy + dz * dz)) by (apply sqrt_lt_R0; exact P).
  assert (SS : sqrt (dx * dx + dy * dy + dz * dz) * sqrt (dx * dx + dy * dy + dz * dz) = dx * dx + dy * dy + dz * dz) by (apply sqrt_sqrt; lra).
  cbn [direction]. unfold vnormalized, vlen, vdivs. vunf. cbn [vx vy vz fsqrt TrigR NumR fdiv fmul fadd].
  set (q := sqrt (dx * dx + dy * dy + dz * dz)) in *. clearbody q. split.
  - unfold unit. vunf. match goal with |- ?a = ?b => change (@eq R a b) end. replace (dx / q * (dx / q) + dy / q * (dy / q) + dz / q * (dz / q)) with ((dx * dx + dy * dy + dz * dz) / (q * q)) by (field; lra). rewrite SS. field. lra.
  - exists q. split; [exact HS|]. unfold vscale, pt. f_equal; vunf; cbn [vx vy vz]; match goal with |- ?a = ?b => change (@eq R a b) end; field; lra.
Qed.
Print Assumptions C61_directions.

Section Load.
  Context {E : @Ext NumR} {HE : externals_ok E}.
  Lemma stands_quiet (resolve : list bytes -> bytes -> nat -> Prop) names items (ops : list (@op NumR)) : stands_for resolve names items ops ->
    forall s s', play s ops = Ret s' -> sc_accelerator s = None -> sc_accelerator s' = None.
  Proof.
    intros H. assert (G : Forall (fun o => match o with AddMaterial _ | AddObject _ _ _ => True | _ => False end) ops).
    { induction H; [constructor|constructor; [exact I|assumption]|]. apply Forall_app. split; [|assumption]. apply Forall_map, Forall_forall. intros; exact I. }
    clear H. induction G as [|o ops Ho G IH]; intros s s' P A; cbn [play] in P; [injection P as <-; exact A|].
    destruct (step s o) as [s1| |] eqn:St; cbn [obind] in P; try discriminate. apply (IH s1 s' P). destruct o; try contradiction; cbn [step] in St.
    - injection St as <-. exact A.
    - unfold push_object in St. destruct (nth_error _ _) as [mf|]; [|discriminate]. destruct (nth_error _ _) as [mb|]; [|discriminate].
      destruct (register_light s front back p mf mb) as [s2 il] eqn:RL. destruct (mesh_primitive p il) as [[ts ns]| |]; cbn [obind] in St; try discriminate. injection St as <-. cbn.
      unfold register_light in RL. destruct (_ || _); [|injection RL as <- _; exact A]. destruct (id_is_source _); injection RL as <- _; exact A.
  Qed.
  Lemma radiance_loads parse new_source triangulate model_from_file read_file name src s0 : parse [] = None ->
    ends_with name (lit ".rad") = true -> read_file name = Some src -> from_radiance_source parse new_source triangulate src = Ret s0 -> manageable s0 ->
    exists h s, play scene_new h = Ret s0 /\ made h s /\ load_scene parse new_source triangulate model_from_file read_file name = Ret s.
  Proof.
    intros PN HN HF HS HM. destruct (proj1 (C40_reads_the_description _ _ _ parse new_source triangulate src s0 PN) HS) as (ws & wss & items & ops & _ & _ & _ & _ & SF & PL).
    destruct (rebuilt (HE := HE) ops s0 PL HM) as (s & HB & _). exists ops, s. split; [exact PL|]. split; [exists s0; auto|].
    unfold load_scene. rewrite HN, HF. cbn [ret_opt obind]. rewrite HS. cbn [obind]. unfold build_accelerator.
    rewrite (stands_quiet _ _ _ _ SF _ _ PL eq_refl). exact HB.
  Qed.
End Load.
Lemma total_close (f g : nat -> R) e l : 0 <= e -> (forall j, In j l -> Rabs (f j - g j) <= e) -> Rabs (total (map f l) - total (map g l)) <= INR (length l) * e.
Proof.
  intros He. induction l as [|j l IH]; intros H; cbn [map total length].
  - rewrite Rminus_0_r, Rabs_R0. cbn. lra.
  - rewrite S_INR. pose proof (H j (or_introl eq_refl)) as H1. specialize (IH (fun k Hk => H k (or_intror Hk))).
    replace (f j + total (map f l) - (g j + total (map g l))) with ((f j - g j) + (total (map f l) - total (map g l))) by ring.
    eapply Rle_trans; [apply Rabs_triang|]. lra.
Qed.
(** From a Radiance file and lines of sensors with nothing in front of them: the matrix file has one row per line, and the entries of
    each row sum to pi in every channel, up to the five decimals with which each entry is printed. *)
Theorem C62_open_sky : forall (E : @Ext NumR) (RG : Gen NumR) (GO : @Geo NumR) new_source triangulate model_from_file reinhart_new read_file (i : @FluxInputs NumR) src s0 input ls rays seed seeds nest fuel,
  let sky := reinhart_new (fi_mf i) in
  externals_ok E -> fair RG -> perpendicular_good GO ->
  ends_with (fi_input i) (lit ".rad") = true -> read_file (fi_input i) = Some src ->
  from_radiance_source (N := NumR) parse_decimal new_source triangulate src = Ret s0 -> manageable s0 ->
  typed input ls -> Forall2 (sensor_line (N := NumR) parse_decimal) ls rays ->
  (forall s, load_scene (N := NumR) parse_decimal new_source triangulate model_from_file read_file (fi_input i) = Ret s -> Forall (fun ray => unit (direction ray) /\ unobstructed s ray) rays) ->
  binned sky -> (0 < fi_n_ambient_samples i)%nat -> (0 < nest)%nat -> (2 * length (a_tri (sc_arrays s0)) <= fuel)%nat -> fits (length ls) (n_bins sky) ->
  exists file m, sfluxmtx (N := NumR) parse_decimal show5 new_source triangulate model_from_file reinhart_new read_file nest fuel seed seeds i input = Ret (Wrote file) /\
    read_colour_matrix (N := NumR) parse_decimal file = Ret (Some m) /\ m_rows m = length ls /\ m_cols m = n_bins sky /\
    forall k, (k < length ls)%nat ->
      Rabs (row_total sr m k - PI) <= INR (n_bins sky) * (5 / 1000000) /\ Rabs (row_total sg m k - PI) <= INR (n_bins sky) * (5 / 1000000) /\
      Rabs (row_total sb m k - PI) <= INR (n_bins sky) * (5 / 1000000).
Proof.
  intros E RG GO new_source triangulate model_from_file reinhart_new read_file i src s0 input ls rays seed seeds nest fuel sky HE HF HG HN HR HS HM HT F2 HU HB Hn Hnest Hfuel Fit.
  destruct (radiance_loads (E := E) (HE := HE) parse_decimal new_source triangulate model_from_file read_file (fi_input i) src s0) as (h & s & PL & HMd & HL); auto.
  specialize (HU s HL). destruct (C50_open E RG GO h s0 HE HF HG PL HM) as (s' & (s0' & PL' & HB') & HO). destruct HMd as (s0'' & PL'' & HB''). assert (s' = s) by congruence. subst s'. clear PL' PL'' HB' HB'' s0' s0''.
  set (d := mkDC (N := NumR) sky (fi_max_depth i) (fi_n_ambient_samples i) (fi_limit_weight i) (fi_count_specular_bounce i)).
  destruct (HO d rays seed seeds nest fuel HB Hn Hnest Hfuel HU) as (cm & HC & HRow).
  assert (LR : length rays = length ls) by (clear - F2; induction F2; cbn; congruence).
  destruct (calc_dc_spec nest fuel d rays s seed seeds) as [K1 K2]. destruct (K2 cm HC) as (dcs & HD). destruct (K1 dcs HD) as (cm' & E1 & E2 & E3 & E4 & _). rewrite HC in E1. injection E1 as <-.
  change (n_bins (dc_reinhart d)) with (n_bins sky) in *.
  destruct (C37_colour_matrix NumR show5 parse_decimal near5 cm) as (file & S1 & S2); [exact E2|rewrite E3, E4, LR; exact Fit|apply Forall_forall; intros v _; repeat split; apply show5_printed|].
  exists file. eexists. split.
  { unfold sfluxmtx. rewrite HL. cbn [obind]. rewrite (proj1 (C61_sensors_partial NumR parse_decimal input ls HT) rays F2). cbn [obind].
    change (flux_factory reinhart_new i) with d. rewrite HC. cbn [obind]. rewrite S1. reflexivity. }
  split; [exact S2|]. cbn [m_rows m_cols]. split; [congruence|]. split; [exact E4|]. intros k Hk.
  destruct (nth_error rays k) as [ray|] eqn:Er; [|apply nth_error_None in Er; lia]. destruct (HRow k ray Er) as (_ & R1 & R2 & R3).
  set (m := @mkMat (@Spectrum NumR) (m_rows cm) (m_cols cm) (map (@smap NumR near5) (m_data cm))).
  assert (EN : forall j, (j < n_bins sky)%nat -> entry m k j = @smap NumR near5 (entry cm k j)).
  { intros j Hj. unfold entry. assert (Hv : exists v, mat_get cm k j = Some v) by (apply mat_get_some; [exact E2|lia|lia]). destruct Hv as (v & Hv). 
    assert (Hm : mat_get m k j = Some (@smap NumR near5 v)). { unfold mat_get in Hv |- *. unfold m. cbn [m_rows m_cols m_data]. destruct (Nat.ltb k (m_rows cm) && Nat.ltb j (m_cols cm)); [|discriminate]. rewrite nth_error_map, Hv. reflexivity. }
    rewrite Hm, Hv. reflexivity. }
  assert (CL : forall ch : @Spectrum NumR -> R, (forall v, ch (@smap NumR near5 v) = near5 (ch v)) -> row_total ch cm k = PI -> Rabs (row_total ch m k - PI) <= INR (n_bins sky) * (5 / 1000000)).
  { intros ch Hch HP. rewrite <- HP. unfold row_total. change (m_cols m) with (m_cols cm). rewrite E4.
    replace (INR (n_bins sky)) with (INR (length (seq 0 (n_bins sky)))) by (rewrite seq_length; reflexivity). apply total_close; [lra|]. intros j Hj. apply in_seq in Hj. rewrite EN by lia. rewrite Hch. apply near5_close. }
  split; [|split]; apply CL; auto.
Qed.
Print Assumptions C62_open_sky.

(** ** C63 - spict finishes on scenes without lights *)
(** A Radiance file without lights, a well written view and draws that never take the unbounded branch of a glossy material (C26):
    spict finishes with a file, for every size. *)
Theorem C63_dark_returns : forall (E : @Ext NumR) (RG : Gen NumR) (GO : @Geo NumR) fmt new_source triangulate model_from_file read_file (i : @SpictInputs NumR) src s0 h seed nest fuel p d u,
  externals_ok E -> perpendicular_ok ->
  ends_with (si_input i) (lit ".rad") = true -> read_file (si_input i) = Some src ->
  from_radiance_source (N := NumR) parse_decimal new_source triangulate src = Ret s0 -> manageable s0 ->
  play scene_new h = Ret s0 -> samplable h -> sc_lights s0 = [] -> sc_distant_lights s0 = [] -> sc_sky s0 = None -> Forall TracerSafe.plain (sc_materials s0) ->
  says_numbers parse_decimal (si_view_point i) p -> says_numbers parse_decimal (si_view_direction i) d ->
  says_numbers parse_decimal (match si_view_up i with Some t => t | None => show_triplet (N := NumR) fmt (f0, f1, f0) end) u -> length p = 3%nat -> length d = 3%nat -> length u = 3%nat ->
  (forall g, @fltb NumR (fst (gen g)) (si_count_specular_bounce i) = true) -> (si_max_depth i <= 14)%nat -> (Z.of_nat (si_x i * si_y i) < 2 ^ 64)%Z ->
  (si_max_depth i + 2 <= nest)%nat -> (2 * length (a_tri (sc_arrays s0)) <= fuel)%nat -> (si_n_ambient_samples i <= fuel)%nat -> (0 < fuel)%nat ->
  exists file, spict (N := NumR) parse_decimal fmt new_source triangulate model_from_file read_file nest fuel seed i = Ret (Wrote file).
Proof.
  intros E RG GO fmt new_source triangulate model_from_file read_file i src s0 h seed nest fuel p d u HE HPo HN HR HS HM PL HSam H1 H2 H3 HPl Hp Hd Hu Lp Ld Lu HC Hdep Hsz Hn Hf1 Hf2 Hf3.
  destruct p as [|px [|py [|pz [|? ?]]]]; try discriminate. destruct d as [|dx [|dy [|dz [|? ?]]]]; try discriminate. destruct u as [|ux [|uy [|uz [|? ?]]]]; try discriminate.
  destruct (radiance_loads (E := E) (HE := HE) parse_decimal new_source triangulate model_from_file read_file (si_input i) src s0) as (h' & s & PL' & (s0' & PL'' & HB) & HL); auto.
  assert (s0' = s0) by congruence. subst s0'. clear h' PL' PL''.
  destruct (C44_dark_returns_partial E RG GO h s0 HE HPo PL HM HSam H1 H2 H3 HPl) as (s' & (s0' & PL' & HB') & HT). assert (s0' = s0) by congruence. subst s0'. assert (s' = s) by congruence. subst s'. clear PL' HB'.
  apply (proj2 (triplet_spec (N := NumR) parse_decimal _ px py pz)) in Hp. apply (proj2 (triplet_spec (N := NumR) parse_decimal _ dx dy dz)) in Hd. apply (proj2 (triplet_spec (N := NumR) parse_decimal _ ux uy uz)) in Hu.
  unfold spict, up_text. rewrite Hp, Hd. cbv zeta. rewrite Hu, HL. cbn [obind].
  match goal with |- context [render_sequential nest fuel ?c s ?w ?hh ?cam seed] => destruct (C49_returns NumR TrigR E RG GO nest fuel c s w hh cam seed) as (st & _ & _ & ->) end.
  - apply C49_positions_real. exact Hsz.
  - intros r aux g L. destruct (HT (mkTracer (N := NumR) (si_max_depth i) (si_n_shadow_samples i) (si_n_ambient_samples i) (si_limit_weight i) (si_count_specular_bounce i)) HC Hdep r aux g L nest fuel Hn Hf1 Hf2 Hf3) as (li & r' & aux' & g' & Q).
    eexists. exact Q.
  - eexists. reflexivity.
Qed.
Print Assumptions C63_dark_returns.

(** ** A case for both: one gray triangle seen from above *)
Definition tile_text : bytes := lit "void plastic gray 0 0 5 0.5 0.5 0.5 0.0 0.0 gray polygon floor 0 0 9 0.0 0.0 0.0 1.0 0.0 0.0 0.0 1.0 0.0".
Definition one_tile : list (@op NumR) := [AddMaterial gray_wall; AddObject 0 0 (PTriangle (plate 0))].
Definition tile_triangulate (ps : list VecR) : option (list TriR) := match ps with [a; b; c] => Some [mkTri a b c] | _ => None end.
Definition tile_source (v : VecR) (a : R) : @DistantSource3D NumR := mkSource (N := NumR) v a.
Lemma half_text : parse_decimal (lit "0.5") = Some (1/2). Proof. decimal 1%R (lit "0") (lit "5") 0%N 5%N. Qed.
Lemma zero_text : parse_decimal (lit "0.0") = Some 0. Proof. decimal 1%R (lit "0") (lit "0") 0%N 0%N. Qed.
Lemma one_text : parse_decimal (lit "1.0") = Some 1. Proof. decimal 1%R (lit "1") (lit "0") 1%N 0%N. Qed.
Lemma two_text : parse_decimal (lit "-2.0") = Some (-2). Proof. decimal (-1)%R (lit "2") (lit "0") 2%N 0%N. Qed.
Ltac numbers_tac := repeat (constructor; [first [exact half_text|exact zero_text|exact one_text|exact two_text]|]); constructor.
Lemma tile_loads : exists s0, play (E := ext_example) scene_new one_tile = Ret s0 /\ manageable s0 /\ length (a_tri (sc_arrays s0)) = 1%nat /\
  sc_materials s0 = [gray_wall] /\ sc_lights s0 = [] /\ sc_distant_lights s0 = [] /\ sc_sky s0 = None /\
  from_radiance_source (N := NumR) (T := TrigR) parse_decimal tile_source tile_triangulate tile_text = Ret s0.
Proof.
  assert (P : exists s0, play (E := ext_example) scene_new one_tile = Ret s0 /\ manageable s0 /\ length (a_tri (sc_arrays s0)) = 1%nat /\
    sc_materials s0 = [gray_wall] /\ sc_lights s0 = [] /\ sc_distant_lights s0 = [] /\ sc_sky s0 = None).
  { unfold one_tile. cbn [play step push_material fst obind].
    unfold push_object. cbn [sc_materials set_materials nth_error scene_new app]. unfold register_light. cbn [gray_wall emits_direct_light orb].
    cbn [orb mesh_primitive obind mesh_triangle length repeat sc_materials sc_arrays set_arrays scene_new empty_arrays a_tri a_front a_back a_norm app set_materials nth_error].
    eexists. split; [reflexivity|]. cbn [sc_arrays set_arrays a_tri]. split; [split; [cbn; lia|apply uncrowded_few; cbn; lia]|]. repeat split. }
  destruct P as (s0 & P1 & P2 & P3 & P4 & P5 & P6 & P7). exists s0. do 7 (split; [assumption|]).
  apply (proj2 (C40_reads_the_description NumR TrigR ext_example parse_decimal tile_source tile_triangulate tile_text s0 eq_refl)).
  exists (split_ws tile_text), [[lit "void"; lit "plastic"; lit "gray"; lit "0"; lit "0"; lit "5"] ++ map list_ascii_of_string ["0.5"; "0.5"; "0.5"; "0.0"; "0.0"]%string;
    [lit "gray"; lit "polygon"; lit "floor"; lit "0"; lit "0"; lit "9"] ++ map list_ascii_of_string ["0.0"; "0.0"; "0.0"; "1.0"; "0.0"; "0.0"; "0.0"; "1.0"; "0.0"]%string],
    [Define (lit "gray") gray_wall; Place (lit "gray") [PTriangle (plate 0)]], one_tile.
  split; [apply runs_split; reflexivity|]. split; [apply Forall_forall, forallb_forall; vm_compute; reflexivity|]. split; [vm_compute; reflexivity|]. split.
  - constructor; [apply d_plastic; cbn; numbers_tac|]. constructor; [|constructor].
    apply (d_polygon (N := NumR) parse_decimal tile_source tile_triangulate _ _ _ _ [pt 0 0 0; pt 1 0 0; pt 0 1 0] [plate 0]); [reflexivity|cbn; numbers_tac|reflexivity].
  - split; [|exact P1]. unfold one_tile. constructor. change [AddObject 0 0 (PTriangle (plate 0))] with (map (@AddObject NumR 0 0) [PTriangle (plate 0)] ++ []).
    apply sf_place; [split; [reflexivity|lia]|constructor].
Qed.
Definition tile_files (name : bytes) : option bytes := Some tile_text.
Definition tile_flux : @FluxInputs NumR := mkFlux (N := NumR) (lit "tile.rad") 1 2 3 (1/10000) (1/2).
Example C62_open_hyp : let sky := two_bins in exists s0, externals_ok ext_example /\ fair (constant (1/2)) /\ perpendicular_good geo_perp /\
  ends_with (fi_input tile_flux) (lit ".rad") = true /\ tile_files (fi_input tile_flux) = Some tile_text /\
  from_radiance_source (N := NumR) (T := TrigR) parse_decimal tile_source tile_triangulate tile_text = Ret s0 /\ manageable s0 /\
  typed (line1 ++ [NL]) [line1] /\ exists ray, Forall2 (sensor_line (N := NumR) parse_decimal) [line1] [ray] /\
  (forall s, load_scene (N := NumR) (E := ext_example) parse_decimal tile_source tile_triangulate (fun _ => None) tile_files (fi_input tile_flux) = Ret s -> Forall (fun ray => unit (direction ray) /\ unobstructed s ray) [ray]) /\
  binned sky /\ (0 < fi_n_ambient_samples tile_flux)%nat /\ (2 * length (a_tri (sc_arrays s0)) <= 2)%nat /\ fits 1 (n_bins sky).
Proof.
  intros sky. destruct tile_loads as (s0 & P1 & P2 & P3 & P4 & P5 & P6 & P7 & P8). exists s0. split; [exact ext_example_ok|]. split; [apply fair_constant; lra|]. split; [exact geo_perp_good|].
  split; [reflexivity|]. split; [reflexivity|]. split; [exact P8|]. split; [exact P2|].
  assert (O1 : one_line line1) by (intros H; cbn in H; repeat (destruct H as [H|H]; [discriminate|]); exact H).
  split; [constructor; [exact O1|constructor]|]. eexists. split; [constructor; [exact line1_sensor|constructor]|]. split.
  - intros s HL. constructor; [|constructor].
    assert (U : vnormalized (V3 (N := NumR) 0 0 2) = up).
    { unfold vnormalized, vlen, vdivs, up, pt. vunf. cbn [vx vy vz fsqrt TrigR NumR fdiv fmul fadd].
      replace (0 * 0 + 0 * 0 + 2 * 2) with (2 * 2) by ring. rewrite sqrt_square by lra. f_equal; match goal with |- ?a = ?b => change (@eq R a b) end; field. }
    cbn [direction]. rewrite U. split; [exact up_unit|].
    destruct (radiance_loads (E := ext_example) (HE := ext_example_ok) parse_decimal tile_source tile_triangulate (fun _ => None) tile_files (fi_input tile_flux) tile_text s0) as (h & s' & PL & HMd & HL'); auto.
    rewrite HL in HL'. injection HL' as <-. destruct HMd as (s0' & PL' & HB). assert (s0' = s0) by congruence. subst s0'.
    destruct (rebuilt (E := ext_example) (HE := ext_example_ok) one_tile s0 P1 P2) as (s' & HB' & _ & _ & _ & _ & _ & Ha & Hp & _). rewrite HB in HB'. injection HB' as <-.
    intros v t k Uv Hv Hin HT _.
    assert (Q : t = plate 0).
    { rewrite <- (map_records_tri _ Ha) in Hin. apply in_map_iff in Hin as (rec & <- & Hin). apply (Permutation.Permutation_in _ Hp) in Hin.
      unfold one_tile, objects_of, stored in Hin. cbn [flat_map app] in Hin. rewrite !plate_facets in Hin. cbn in Hin. destruct Hin as [<-|[]]; reflexivity. }
    subst t. destruct HT as (_ & Hk & u & w & HB' & _). apply (f_equal (@vz NumR)) in HB'.
    destruct v as [x y q]. unfold along, bary, plate, up, pt in *. vunf. cbn [origin direction ta tb tc vx vy vz] in *. nra.
  - split; [exact two_bins_ok|]. split; [cbn; lia|]. split; [lia|]. cbn. repeat split; cbn; lia.
Qed.
Definition tile_view : @SpictInputs NumR := mkSpict (N := NumR) (lit "tile.rad") 2 3 4 (1/10000) 1 20 10 (lit "0.5 0.5 1.0") (lit "0.0 0.0 -2.0") (Some (lit "0.0 1.0 0.0")) 60.
Example C63_hyp : exists file, spict (N := NumR) (E := ext_example) (RG := constant (1/2)) (GO := geo_example) parse_decimal (fun _ => []) tile_source tile_triangulate (fun _ => None) tile_files 4 4 (fun _ => tt) tile_view = Ret (Wrote file).
Proof.
  destruct tile_loads as (s0 & P1 & P2 & P3 & P4 & P5 & P6 & P7 & P8).
  assert (NS : forall ws : list bytes, forallb (forallb (fun c => negb (beqb SPACE c))) ws = true -> Forall no_space ws).
  { intros ws. induction ws as [|w ws IH]; cbn; intros H; constructor; apply andb_prop in H as [H1 H2]; [|auto]. intros Hin. rewrite forallb_forall in H1. specialize (H1 _ Hin). discriminate. }
  assert (SN : forall t ws vs, core t (spaced ws) -> forallb (forallb (fun c => negb (beqb SPACE c))) ws = true -> Forall2 (fun w v => parse_decimal w = Some v) ws vs -> says_numbers parse_decimal t vs).
  { intros t ws vs C W F2. exists ws. auto. }
  eapply (C63_dark_returns ext_example (constant (1/2)) geo_example) with (src := tile_text) (s0 := s0) (h := one_tile) (p := [1/2; 1/2; 1]) (d := [0; 0; -2]) (u := [0; 1; 0]).
  - exact ext_example_ok.
  - exact geo_perpendicular.
  - reflexivity.
  - reflexivity.
  - exact P8.
  - exact P2.
  - exact P1.
  - intros f b p [Q|[]]. injection Q as <- <- <-. split; [discriminate|intros d Hd; discriminate].
  - exact P5.
  - exact P6.
  - exact P7.
  - rewrite P4. constructor; [|constructor]. intros g. apply Rltb_is_false. cbn. lra.
  - apply (SN _ [lit "0.5"; lit "0.5"; lit "1.0"]); [apply core_spec; vm_compute; reflexivity|reflexivity|numbers_tac].
  - apply (SN _ [lit "0.0"; lit "0.0"; lit "-2.0"]); [apply core_spec; vm_compute; reflexivity|reflexivity|numbers_tac].
  - apply (SN _ [lit "0.0"; lit "1.0"; lit "0.0"]); [apply core_spec; vm_compute; reflexivity|reflexivity|numbers_tac].
  - reflexivity.
  - reflexivity.
  - reflexivity.
  - intros g. apply Rltb_is_true. cbn. lra.
  - cbn. lia.
  - cbn. lia.
  - cbn. lia.
  - rewrite P3. lia.
  - cbn. lia.
  - lia.
Qed.
