(** * C60-C65: the command-line programs *)
From Verif Require Import NumR Text TextProofs HeaderProofs Geometry Colour ColourMatrix SpecMatrix SpecImage SpecColour SpecDecimal MatrixProofs ImageProofs Ray Scene Image Camera RayTracer Render RenderProofs
  Daylight DaylightProofs Importers Radiance Tools SpecTools ToolsProofs P_Matrix P_Image P_Importers P_FalseColour P_Render P_Daylight.
From Coq Require Import Reals Lra.
Open Scope nat_scope.

(** ** C60 - three numbers in one argument *)
(** The text is accepted exactly when, without the white space around it, it is three numbers separated by single spaces, and the
    numbers are taken in that order. *)
Theorem C60_accepts : forall (N : Num) (parse : bytes -> option F) s a b c, triplet_of parse s = Some (a, b, c) <-> says_numbers parse s [a; b; c].
Proof. intros. apply triplet_spec. Qed.
Print Assumptions C60_accepts.
Lemma graphic_facts c : (33 <= code c < 127)%N -> c <> SPACE /\ (forall w, In w white_chars -> ~ In c w).
Proof.
  intros H. split; [intros ->; change (code SPACE) with 32%N in H; lia|]. intros w Hw Hc.
  assert (Q : forallb (forallb (fun c => negb ((33 <=? code c) && (code c <? 127)))%N) white_chars = true) by (vm_compute; reflexivity).
  rewrite forallb_forall in Q. specialize (Q w Hw). rewrite forallb_forall in Q. specialize (Q c Hc). apply negb_true_iff in Q.
  destruct (N.leb_spec 33 (code c)), (N.ltb_spec (code c) 127); cbn in Q; try discriminate; lia.
Qed.
Lemma core_graphic ws : ws <> [] -> Forall (fun w => w <> [] /\ graphic w) ws -> core (spaced ws) (spaced ws) /\ Forall no_space ws.
Proof.
  intros NE F. assert (H : (exists c r, spaced ws = c :: r /\ (33 <= code c < 127)%N) /\ (exists c r, spaced ws = r ++ [c] /\ (33 <= code c < 127)%N) /\ Forall no_space ws).
  { induction F as [|w ws [W1 W2] F IH]; [contradiction|]. destruct w as [|x w]; [contradiction|]. clear W1 NE.
    assert (NS : no_space (x :: w)). { intros Hin. unfold graphic in W2. rewrite Forall_forall in W2. apply W2 in Hin. apply graphic_facts in Hin as [Q _]. apply Q. reflexivity. }
    assert (B : exists c r, spaced ((x :: w) :: ws) = c :: r /\ (33 <= code c < 127)%N).
    { inversion_clear W2. destruct ws as [|v ws]; [exists x, w|exists x, (w ++ SPACE :: spaced (v :: ws))]; auto. }
    split; [exact B|]. destruct ws as [|v ws].
    - split; [|constructor; [exact NS|constructor]]. destruct (exists_last (l := x :: w)) as (r & c & E); [discriminate|]. exists c, r. cbn [spaced]. split; [exact E|].
      rewrite E in W2. apply Forall_app in W2 as [_ W2]. inversion W2; assumption.
    - destruct IH as (_ & (c & r & E & Hc) & NSs); [discriminate|]. split; [|constructor; assumption]. exists c, ((x :: w) ++ SPACE :: r).
      split; [|exact Hc]. change (spaced ((x :: w) :: v :: ws)) with ((x :: w) ++ SPACE :: spaced (v :: ws)). rewrite E, <- app_assoc. reflexivity. }
  destruct H as ((c & r & E1 & H1) & (c' & r' & E2 & H2) & NS). split; [|exact NS]. exists [], []. split; [rewrite app_nil_r; reflexivity|].
  assert (W0 : white []) by (exists []; split; [constructor|reflexivity]). split; [exact W0|]. split; [exact W0|]. split.
  - intros w Hw [u E]. destruct w as [|y w]; [apply (proj1 (apart_spec _ white_apart) _ Hw); reflexivity|]. rewrite E1 in E. injection E as <- _. apply (proj2 (graphic_facts _ H1) _ Hw). left. reflexivity.
  - intros w u Hw E. destruct (exists_last (l := w)) as (w' & y & ->); [apply (proj1 (apart_spec _ white_apart)); exact Hw|].
    rewrite E2, app_assoc in E. apply app_inj_tail in E as [_ <-]. apply (proj2 (graphic_facts _ H2) _ Hw). apply in_app_iff. right. left. reflexivity.
Qed.
(** Printing a triplet and reading it gives the same triplet, if that is so of its numbers; this is how the default view-up vector
    (0, 1, 0) reaches the program. *)
Theorem C60_round_trip : forall (N : Num) (parse : bytes -> option F) fmt a b c,
  Forall (fun x => fmt x <> [] /\ graphic (fmt x) /\ parse (fmt x) = Some x) [a; b; c] -> triplet_of parse (show_triplet fmt (a, b, c)) = Some (a, b, c).
Proof.
  intros N parse fmt a b c H. apply triplet_spec. inversion_clear H as [|? ? (A1 & A2 & A3) H1]. inversion_clear H1 as [|? ? (B1 & B2 & B3) H2]. inversion_clear H2 as [|? ? (C1 & C2 & C3) _].
  destruct (core_graphic [fmt a; fmt b; fmt c]) as [Q1 Q2]; [discriminate|repeat constructor; assumption|].
  exists [fmt a; fmt b; fmt c]. split; [exact Q1|]. split; [exact Q2|]. repeat constructor; assumption.
Qed.
Print Assumptions C60_round_trip.
(** Two spaces in a row are not accepted (no number is printed as an empty word). *)
Theorem C60_one_space : forall (N : Num) (parse : bytes -> option F) s u v, parse [] = None -> core s (u ++ SPACE :: SPACE :: v) -> triplet_of parse s = None.
Proof.
  intros N parse s u v P C. apply core_spec in C. destruct (triplet_of parse s) as [[[a b] c]|] eqn:E; [|reflexivity]. exfalso.
  apply triplet_spec in E. destruct E as (ws & C' & NS & F2). apply core_spec in C'. rewrite C in C'.
  assert (NEw : Forall (fun w => w <> []) ws). { clear - F2 P. induction F2; constructor; [|assumption]. intros ->. congruence. }
  clear - C' NS NEw. revert u C'. induction NS as [|w ws Hw NS IH]; intros u E; [destruct u; discriminate|]. inversion_clear NEw as [|? ? H1 H2].
  cbn [spaced] in E. destruct ws as [|w2 ws].
  { apply Hw. rewrite <- E. apply in_app_iff. right. left. reflexivity. }
  assert (HU : exists u', u = w ++ SPACE :: u' \/ u = w).
  { clear - E Hw H2. revert u E. induction w as [|x w IHw]; intros u E.
    - destruct u as [|y u]; [exists []; right; reflexivity|]. exists u. left. cbn in E |- *. injection E as -> _. reflexivity.
    - destruct u as [|y u]; [exfalso; cbn in E; injection E as E1 _; apply Hw; left; congruence|]. cbn in E. injection E as -> E.
      destruct (IHw) with (u := u) as (u' & [->| ->]); [intros Q; apply Hw; right; exact Q|exact E|exists u'; left; reflexivity|exists u'; right; reflexivity]. }
  destruct HU as (u' & [->| ->]).
  - rewrite <- app_assoc in E. cbn in E. apply app_inv_head in E. injection E as E. exact (IH H2 u' E).
  - apply app_inv_head in E. injection E as E. inversion_clear H2 as [|? ? N2 _]. inversion_clear NS as [|? ? S2 _].
    destruct w2 as [|x w2]; [contradiction|]. destruct ws; cbn in E; injection E as E _; apply S2; left; congruence.
Qed.
Print Assumptions C60_one_space.
Lemma decimal_case w x : (exists sg a b, (match w with c :: l' => if beqb c "-"%char then ((-1)%R, l') else (1%R, w) | [] => (1%R, []) end) = (sg, a ++ "."%char :: b) /\
   Forall (fun c => beqb "."%char c = false) a /\ Forall (fun c => beqb "."%char c = false) b /\
   exists n m, parse_unsigned a = Some n /\ parse_unsigned b = Some m /\ x = (sg * (IZR (Z.of_N n) + IZR (Z.of_N m) / 10 ^ length b))%R) -> parse_decimal w = Some x.
Proof.
  intros (sg & a & b & E & Ha & Hb & n & m & Pa & Pb & ->). assert (Q : split_on (beqb "."%char) (a ++ "."%char :: b) = [a; b]) by (rewrite split_on_sep; [|exact Ha|reflexivity]; rewrite split_on_none by exact Hb; reflexivity).
  unfold parse_decimal. destruct w as [|c w]; [injection E as <- E; destruct a; discriminate|]. destruct (beqb c "-"); injection E as <- E; rewrite E, Q, Pa, Pb; reflexivity.
Qed.
Ltac decimal sg a b n m := apply decimal_case; exists sg, a, b; split; [reflexivity|]; split; [repeat constructor|]; split; [repeat constructor|]; exists n, m; split; [reflexivity|]; split; [reflexivity|cbn; lra].
Example C60_case : triplet_of (N := NumR) parse_decimal (lit " 1.0 -2.5 30.25 " ++ [NL]) = Some (1, -5/2, 121/4)%R /\
  core (lit " 1.0 -2.5 30.25 " ++ [NL]) (lit "1.0 -2.5 30.25").
Proof.
  assert (C : core (lit " 1.0 -2.5 30.25 " ++ [NL]) (lit "1.0 -2.5 30.25")) by (apply core_spec; vm_compute; reflexivity). split; [|exact C].
  apply C60_accepts. exists [lit "1.0"; lit "-2.5"; lit "30.25"]. split; [exact C|]. split.
  - repeat constructor; intros H; cbn in H; repeat (destruct H as [H|H]; [discriminate|]); exact H.
  - repeat constructor.
    + decimal 1%R (lit "1") (lit "0") 1%N 0%N.
    + decimal (-1)%R (lit "2") (lit "5") 2%N 5%N.
    + decimal 1%R (lit "30") (lit "25") 30%N 25%N.
Qed.

(** ** C61 - the sensors given to sfluxmtx *)
(** Every text has lines, in one way. *)
Theorem C61_lines : forall input, exists ls, typed input ls /\ forall ls', typed input ls' -> ls' = ls.
Proof. intros input. destruct (typed_exists input) as (ls & T). exists ls. split; [exact T|]. intros ls' T'. symmetry. eapply typed_unique; eassumption. Qed.
Print Assumptions C61_lines.
(** When every line is six numbers, the sensors are those of the lines, in order; when every line before one that is not six numbers
    is, the program refuses. *)
Theorem C61_sensors_partial : forall (N : Num) (parse : bytes -> option F) input ls, typed input ls ->
  (forall rays, Forall2 (sensor_line parse) ls rays -> sensors parse input = Ret (Some rays)) /\
  (forall before rays l after, ls = before ++ l :: after -> Forall2 (sensor_line parse) before rays ->
     utf8 l = true -> (forall ray, ~ sensor_text parse l ray) -> sensors parse input = Ret None).
Proof.
  intros N parse input ls T. unfold sensors. split.
  - intros rays F2. rewrite <- (app_nil_r ls) in T. destruct (read_sensors_good parse ls rays F2 [] input (S (length input)) [] T (Nat.lt_succ_diag_r _)) as (rest & fuel & T' & L & ->).
    inversion T'; subst. destruct fuel; [lia|]. reflexivity.
  - intros before rays l after -> F2 U NS. destruct (read_sensors_good parse before rays F2 (l :: after) input (S (length input)) [] T (Nat.lt_succ_diag_r _)) as (rest & fuel & T' & L & ->).
    destruct fuel; [lia|]. destruct (read_sensors_step parse fuel rest l after ([] ++ rays) T') as (rest' & _ & _ & ->). rewrite U.
    destruct (sensor_of parse l) as [ray|] eqn:E; [|reflexivity]. exfalso. apply (NS ray). apply sensor_spec. exact E.
Qed.
Print Assumptions C61_sensors_partial.
(** But a line that is not UTF-8 ends the list: the sensors of the lines before it are used and the rest is ignored, without an error. *)
Theorem C61_sensors_refuted : forall (N : Num) (parse : bytes -> option F) input before l after rays, typed input (before ++ l :: after) ->
  Forall2 (sensor_line parse) before rays -> utf8 l = false -> sensors parse input = Ret (Some rays).
Proof.
  intros N parse input before l after rays T F2 U. unfold sensors.
  destruct (read_sensors_good parse before rays F2 (l :: after) input (S (length input)) [] T (Nat.lt_succ_diag_r _)) as (rest & fuel & T' & L & ->).
  destruct fuel; [lia|]. destruct (read_sensors_step parse fuel rest l after ([] ++ rays) T') as (rest' & _ & _ & ->). rewrite U. reflexivity.
Qed.
Print Assumptions C61_sensors_refuted.
(** These cases are all: the program always answers, and never invents or reorders sensors. *)
Theorem C61_sensors_of_lines : forall (N : Num) (parse : bytes -> option F) input ls, typed input ls ->
  exists before after, ls = before ++ after /\ exists rays, Forall2 (sensor_line parse) before rays /\
    ((sensors parse input = Ret (Some rays) /\ (after = [] \/ exists l after', after = l :: after' /\ utf8 l = false)) \/
     (sensors parse input = Ret None /\ exists l after', after = l :: after' /\ utf8 l = true /\ forall ray, ~ sensor_text parse l ray)).
Proof.
  intros N parse input ls T.
  assert (G : exists before after rays, ls = before ++ after /\ Forall2 (sensor_line parse) before rays /\ (after = [] \/ exists l after', after = l :: after' /\ (utf8 l = false \/ utf8 l = true /\ forall ray, ~ sensor_text parse l ray))).
  { clear T. induction ls as [|l ls IH]; [exists [], [], []; repeat split; auto|]. destruct (utf8 l) eqn:U.
    - destruct (sensor_of parse l) as [ray|] eqn:E.
      + destruct IH as (before & after & rays & -> & F2 & A). exists (l :: before), after, (ray :: rays). split; [reflexivity|]. split; [|exact A].
        constructor; [|exact F2]. split; [exact U|apply sensor_spec; exact E].
      + exists [], (l :: ls), []. split; [reflexivity|]. split; [constructor|]. right. exists l, ls. split; [reflexivity|]. right. split; [exact U|]. intros ray S1. apply sensor_spec in S1. congruence.
    - exists [], (l :: ls), []. split; [reflexivity|]. split; [constructor|]. right. exists l, ls. auto. }
  destruct G as (before & after & rays & -> & F2 & A). exists before, after. split; [reflexivity|]. exists rays. split; [exact F2|]. destruct A as [->|(l & after' & -> & [U|[U NS]])].
  - left. split; [|auto]. rewrite app_nil_r in T. apply (C61_sensors_partial N parse input before T). exact F2.
  - left. split; [|right; eauto]. eapply C61_sensors_refuted; eassumption.
  - right. split; [|eauto]. apply (C61_sensors_partial N parse input _ T) with (before := before) (l := l) (after := after') (rays := rays); auto.
Qed.
Print Assumptions C61_sensors_of_lines.
(* two sensors, the second without a newline; and the same text with a byte 255 in the second line *)
Definition line1 : bytes := lit "0.0 0.5 1.0 0.0 0.0 2.0".
Lemma line1_sensor : sensor_line (N := NumR) parse_decimal line1 (mkRay3D (V3 (N := NumR) 0 (1/2) 1) (vnormalized (V3 (N := NumR) 0 0 2)))%R.
Proof.
  split; [reflexivity|]. exists 0%R, (1/2)%R, 1%R, 0%R, 0%R, 2%R. split; [|reflexivity].
  exists [lit "0.0"; lit "0.5"; lit "1.0"; lit "0.0"; lit "0.0"; lit "2.0"]. split; [apply core_spec; vm_compute; reflexivity|]. split.
  - repeat constructor; intros H; cbn in H; repeat (destruct H as [H|H]; [discriminate|]); exact H.
  - repeat constructor.
    + decimal 1%R (lit "0") (lit "0") 0%N 0%N.
    + decimal 1%R (lit "0") (lit "5") 0%N 5%N.
    + decimal 1%R (lit "1") (lit "0") 1%N 0%N.
    + decimal 1%R (lit "0") (lit "0") 0%N 0%N.
    + decimal 1%R (lit "0") (lit "0") 0%N 0%N.
    + decimal 1%R (lit "2") (lit "0") 2%N 0%N.
Qed.
Example C61_hyp : typed (line1 ++ NL :: line1) [line1; line1] /\ (exists ray, sensor_line (N := NumR) parse_decimal line1 ray) /\
  typed (line1 ++ NL :: byte_of 255 :: line1) [line1; byte_of 255 :: line1] /\ utf8 (byte_of 255 :: line1) = false /\
  typed (line1 ++ [NL; NL]) [line1; []] /\ forall ray, ~ sensor_text (N := NumR) parse_decimal [] ray.
Proof.
  assert (O1 : one_line line1) by (intros H; cbn in H; repeat (destruct H as [H|H]; [discriminate|]); exact H).
  assert (O2 : one_line (byte_of 255 :: line1)) by (intros [H|H]; [discriminate|contradiction]).
  split; [constructor; [exact O1|]; constructor; [exact O1|discriminate]|]. split; [eexists; exact line1_sensor|].
  split; [constructor; [exact O1|]; constructor; [exact O2|discriminate]|]. split; [reflexivity|].
  split. { change (line1 ++ [NL; NL]) with (line1 ++ NL :: ([] ++ NL :: [])). constructor; [exact O1|]. constructor; [intros []|constructor]. }
  intros ray H. apply sensor_spec in H. discriminate.
Qed.

(** ** loading the scene, common to spict and sfluxmtx *)
(** A name that ends in neither .rad nor .spl, and every .spl file (readable or not), is a panic. *)
Theorem C62_spl_refuted : forall (N : Num) (T : Trig N) (E : Ext) parse new_source triangulate model_from_file read_file (name : bytes),
  ends_with name (lit ".rad") = false -> load_scene parse new_source triangulate model_from_file read_file name = Crash.
Proof.
  intros N T E parse new_source triangulate model_from_file read_file name H. unfold load_scene. rewrite H. destruct (ends_with name (lit ".spl")); [|reflexivity].
  destruct (model_from_file name) as [[a b]|]; reflexivity.
Qed.
Print Assumptions C62_spl_refuted.
Example C62_spl_refuted_hyp : ends_with (lit "office.spl") (lit ".rad") = false /\ ends_with (lit "office.rad") (lit ".rad") = true.
Proof. split; reflexivity. Qed.

(** ** C62 - sfluxmtx *)
(** What is written, read back with read_colour_matrix: one row per sensor, one column per bin of the sky, and row i is the (printed)
    result of sensor i alone with its own draws. *)
Theorem C62_file : forall (N : Num) (T : Trig N) (E : Ext) (RG : Gen N) (GO : Geo) parse fmt5 new_source triangulate model_from_file reinhart_new read_file
    nest fuel seed seeds (i : FluxInputs) input file (near : F -> F),
  let sky := reinhart_new (fi_mf i) in
  (forall x, printed fmt5 parse x (near x)) ->
  sfluxmtx parse fmt5 new_source triangulate model_from_file reinhart_new read_file nest fuel seed seeds i input = Ret (Wrote file) ->
  exists s rays, load_scene parse new_source triangulate model_from_file read_file (fi_input i) = Ret s /\ sensors parse input = Ret (Some rays) /\
  (fits (length rays) (n_bins sky) -> exists m, read_colour_matrix parse file = Ret (Some m) /\ m_rows m = length rays /\ m_cols m = n_bins sky /\
    forall k ray, nth_error rays k = Some ray -> exists row,
      calc_dc nest fuel (mkDC sky (fi_max_depth i) (fi_n_ambient_samples i) (fi_limit_weight i) (fi_count_specular_bounce i)) [ray] s (fun _ => seed k) (fun _ => seeds k) = Ret row /\
      forall j, j < n_bins sky -> exists v, mat_get row 0 j = Some v /\ mat_get m k j = Some (smap near v)).
Proof.
  intros N T E RG GO parse fmt5 new_source triangulate model_from_file reinhart_new read_file nest fuel seed seeds i input file near sky HP H. unfold sfluxmtx in H.
  destruct (load_scene _ _ _ _ _ _) as [s| |] eqn:HL in H; cbn [obind] in H; try discriminate.
  destruct (sensors parse input) as [[rays|]| |] eqn:HS; cbn [obind] in H; try discriminate.
  destruct (calc_dc nest fuel (flux_factory reinhart_new i) rays s seed seeds) as [cm| |] eqn:HC; cbn [obind] in H; try discriminate.
  exists s, rays. split; [exact HL|]. split; [reflexivity|]. intros Fit.
  destruct (calc_dc_spec nest fuel (flux_factory reinhart_new i) rays s seed seeds) as [K1 K2]. destruct (K2 cm HC) as (dcs & HD). destruct (K1 dcs HD) as (cm' & E1 & E2 & E3 & E4 & _).
  rewrite HC in E1. injection E1 as <-. change (n_bins (dc_reinhart (flux_factory reinhart_new i))) with (n_bins sky) in *.
  destruct (C37_colour_matrix N fmt5 parse near cm) as (file' & S1 & S2); [exact E2|rewrite E3, E4; exact Fit|apply Forall_forall; intros v _; auto|].
  rewrite S1 in H. cbn [obind] in H. injection H as <-.
  eexists. split; [exact S2|]. split; [exact E3|]. split; [exact E4|]. intros k ray Hk.
  destruct (C50_rows N T E RG GO nest fuel (flux_factory reinhart_new i) rays s seed seeds) as [R1 _].
  assert (Lk : k < length rays) by (apply nth_error_Some; congruence). destruct (R1 cm HC k Lk) as (mi & Q1 & Q2). rewrite Hk in Q1. exists mi. split; [exact Q1|].
  intros j Hj. specialize (Q2 j Hj). change (n_bins (dc_reinhart (flux_factory reinhart_new i))) with (n_bins sky) in Q2.
  assert (Hv : exists v, mat_get cm k j = Some v) by (apply mat_get_some; [exact E2|lia|lia]). destruct Hv as (v & Hv). exists v. split; [rewrite <- Q2; exact Hv|].
  unfold mat_get in Hv |- *. cbn [m_rows m_cols m_data]. destruct (Nat.ltb k (m_rows cm) && Nat.ltb j (m_cols cm)); [|discriminate].
  rewrite nth_error_map, Hv. reflexivity.
Qed.
Print Assumptions C62_file.
(** A file is written only when the scene was loaded and every line read is a sensor: with a line that is not, nothing is written. *)
Theorem C62_refuses : forall (N : Num) (T : Trig N) (E : Ext) (RG : Gen N) (GO : Geo) parse fmt5 new_source triangulate model_from_file reinhart_new read_file
    nest fuel seed seeds (i : FluxInputs) input before rays l after file,
  typed input (before ++ l :: after) -> Forall2 (sensor_line parse) before rays -> utf8 l = true -> (forall ray, ~ sensor_text parse l ray) ->
  sfluxmtx parse fmt5 new_source triangulate model_from_file reinhart_new read_file nest fuel seed seeds i input <> Ret (Wrote file).
Proof.
  intros N T E RG GO parse fmt5 new_source triangulate model_from_file reinhart_new read_file nest fuel seed seeds i input before rays l after file HT F2 U NS H. unfold sfluxmtx in H.
  destruct (load_scene _ _ _ _ _ _); cbn [obind] in H; try discriminate.
  rewrite (proj2 (C61_sensors_partial N parse input _ HT) before rays l after eq_refl F2 U NS) in H. cbn [obind] in H. discriminate.
Qed.
Print Assumptions C62_refuses.
(** ... but after a line that is not UTF-8 the file is written without the sensors that follow it. *)
Theorem C62_truncated_refuted : forall (N : Num) (T : Trig N) (E : Ext) (RG : Gen N) (GO : Geo) parse fmt5 new_source triangulate model_from_file reinhart_new read_file
    nest fuel seed seeds (i : FluxInputs) input input' before rays l after,
  typed input (before ++ l :: after) -> typed input' before -> Forall2 (sensor_line parse) before rays -> utf8 l = false ->
  sfluxmtx parse fmt5 new_source triangulate model_from_file reinhart_new read_file nest fuel seed seeds i input =
  sfluxmtx parse fmt5 new_source triangulate model_from_file reinhart_new read_file nest fuel seed seeds i input'.
Proof.
  intros. unfold sfluxmtx. erewrite C61_sensors_refuted by eassumption. erewrite (proj1 (C61_sensors_partial _ parse input' _ H0)) by eassumption. reflexivity.
Qed.
Print Assumptions C62_truncated_refuted.

(** ** C63 - spict *)
Section Sequential.
  Context {N : Num} {T : Trig N} {E : Ext} {RG : Gen N} {GO : Geo}.
  Lemma sequential_done nest fuel c s w h camera seed m : render_sequential nest fuel c s w h camera seed = Ret m ->
    exists st, render_steps nest fuel c s w camera (one_by_one w h) (render_start w h seed) = Ret st /\ render_done st /\ m = mkImage w h (rd_pixels st).
  Proof.
    unfold render_sequential. destruct (render_steps nest fuel c s w camera (one_by_one w h) (render_start w h seed)) as [st| |] eqn:H; cbn [obind]; try discriminate.
    intros Q. exists st. split; [reflexivity|]. split; [eapply (enough_done nest fuel c s w h camera seed); [apply one_by_one_enough|exact H]|].
    unfold from_pixels in Q. destruct (negb _); [discriminate|]. injection Q as <-. reflexivity.
  Qed.
End Sequential.
(** The file written is, read back, an image of the size asked for, whose pixels are those traced for the view given by the three
    triplets (C49_pixels says which), as far as the file format can say (C29). *)
Theorem C63_file : forall (N : Num) (T : Trig N) (E : Ext) (RG : Gen N) (GO : Geo) parse fmt new_source triangulate model_from_file read_file
    nest fuel seed (i : SpictInputs) file,
  positions_ok N (si_x i) (si_y i) -> (Z.of_nat (si_x i) < 2 ^ 64)%Z -> (Z.of_nat (si_y i) < 2 ^ 64)%Z ->
  spict parse fmt new_source triangulate model_from_file read_file nest fuel seed i = Ret (Wrote file) ->
  exists px py pz dx dy dz ux uy uz s pixels,
    says_numbers parse (si_view_point i) [px; py; pz] /\ says_numbers parse (si_view_direction i) [dx; dy; dz] /\
    says_numbers parse (match si_view_up i with Some t => t | None => show_triplet fmt (f0, f1, f0) end) [ux; uy; uz] /\
    load_scene parse new_source triangulate model_from_file read_file (si_input i) = Ret s /\
    length pixels = si_x i * si_y i /\
    from_file file = Ret (Some (mkImage (si_x i) (si_y i) (map through_rgbe pixels))) /\
    let view := mkView (V3 px py pz) (vnormalized (V3 dx dy dz)) (V3 ux uy uz) (si_field_of_view i) in
    let camera := pinhole_new view (mkFilm (si_x i) (si_y i)) in
    let tracer := mkTracer (si_max_depth i) (si_n_shadow_samples i) (si_n_ambient_samples i) (si_limit_weight i) (si_count_specular_bounce i) in
    forall k, k * 128 < si_x i * si_y i -> colours nest fuel tracer s (si_x i) (gen_ray camera) (k * 128) (seed k) (firstn 128 (skipn (k * 128) pixels)).
Proof.
  intros N T E RG GO parse fmt new_source triangulate model_from_file read_file nest fuel seed i file HPos Hx Hy H. unfold spict in H.
  destruct (triplet_of parse (si_view_point i)) as [[[px py] pz]|] eqn:E1; [|discriminate].
  destruct (triplet_of parse (si_view_direction i)) as [[[dx dy] dz]|] eqn:E2; [|discriminate].
  destruct (triplet_of parse (up_text fmt i)) as [[[ux uy] uz]|] eqn:E3; [|discriminate].
  destruct (load_scene _ _ _ _ _ _) as [s| |] eqn:HL in H; cbn [obind] in H; try discriminate.
  destruct (render_sequential _ _ _ _ _ _ _ _) as [m| |] eqn:HR in H; cbn [obind] in H; try discriminate. injection H as <-.
  apply triplet_spec in E1, E2, E3. apply sequential_done in HR as (st & HS & HD & ->).
  destruct (C49_pixels N T E RG GO _ _ _ _ _ _ _ _ _ _ HPos HS HD) as [P1 P2].
  exists px, py, pz, dx, dy, dz, ux, uy, uz, s, (rd_pixels st). split; [exact E1|]. split; [exact E2|]. split; [exact E3|]. split; [exact HL|]. split; [exact P1|].
  split; [apply (C30_save_load N T (mkImage (si_x i) (si_y i) (rd_pixels st))); assumption|]. exact P2.
Qed.
Print Assumptions C63_file.
(** Without three good triplets nothing is written: the program exits before doing anything. *)
Theorem C63_refuses : forall (N : Num) (T : Trig N) (E : Ext) (RG : Gen N) (GO : Geo) parse fmt new_source triangulate model_from_file read_file
    nest fuel seed (i : SpictInputs) text, In text [si_view_point i; si_view_direction i] \/ si_view_up i = Some text ->
  (forall x y z, ~ says_numbers parse text [x; y; z]) ->
  spict parse fmt new_source triangulate model_from_file read_file nest fuel seed i = Ret Exited.
Proof.
  intros N T E RG GO parse fmt new_source triangulate model_from_file read_file nest fuel seed i text HT NS.
  assert (Q : triplet_of parse text = None) by (destruct (triplet_of parse text) as [[[x y] z]|] eqn:Q; [exfalso; apply (NS x y z); apply triplet_spec; exact Q|reflexivity]).
  unfold spict, up_text. destruct HT as [[<-|[<-|[]]]|HT]; [rewrite Q; reflexivity|rewrite Q; destruct (triplet_of parse (si_view_point i)); reflexivity|].
  rewrite HT, Q. destruct (triplet_of parse (si_view_point i)), (triplet_of parse (si_view_direction i)); reflexivity.
Qed.
Print Assumptions C63_refuses.

(** ** C64 - scompare *)
(** Both images readable and of the same size: the file written is an image of that size whose pixels are the absolute differences
    of radiance, as far as the file format can say. *)
Theorem C64_difference : forall (N : Num) (T : Trig N) read_file (i : CompareInputs) a b,
  load_image read_file (ci_input1 i) = Ret (Some a) -> load_image read_file (ci_input2 i) = Ret (Some b) -> ci_map i = None ->
  consistent a -> consistent b -> same_size a b -> (Z.of_nat (img_width a) < 2 ^ 64)%Z -> (Z.of_nat (img_height a) < 2 ^ 64)%Z ->
  exists file, scompare read_file i = Ret (Wrote (Hdre file)) /\
    from_file file = Ret (Some (mkImage (img_width a) (img_height a)
      (map (fun p => through_rgbe (gray (fabs (radiance (snd p) - radiance (fst p))%num))) (combine (img_pixels a) (img_pixels b))))).
Proof.
  intros N T read_file i a b HA HB HM Ca Cb [W H] Hw Hh. unfold scompare. rewrite HA. cbn [obind]. rewrite HB. cbn [obind]. unfold img_diff. rewrite W, H, !Nat.eqb_refl. cbn [andb negb].
  unfold consistent in *. unfold from_pixels. rewrite map_length, combine_length, Ca, Cb, W, H, Nat.min_id, Nat.eqb_refl. cbn [negb obind]. rewrite HM. eexists. split; [reflexivity|].
  rewrite W, H in *. rewrite C30_save_load by assumption. cbn [img_width img_height img_pixels]. do 3 f_equal. rewrite map_map.
  assert (G : forall l l' : list Spectrum, map (fun p => through_rgbe (gray (fabs (radiance (fst p) - radiance (snd p))%num))) (combine l l') =
    map (fun p => through_rgbe (gray (fabs (radiance (snd p) - radiance (fst p))%num))) (combine l' l)).
  { induction l as [|x l IH]; intros [|y l']; try reflexivity. cbn [combine map fst snd]. rewrite IH. reflexivity. }
  apply G.
Qed.
Print Assumptions C64_difference.
(** An unreadable file, or two sizes: nothing is written. *)
Theorem C64_refuses : forall (N : Num) (T : Trig N) read_file (i : CompareInputs),
  (load_image read_file (ci_input1 i) = Ret None -> scompare read_file i = Ret Exited) /\
  (forall a, load_image read_file (ci_input1 i) = Ret (Some a) -> load_image read_file (ci_input2 i) = Ret None -> scompare read_file i = Ret Exited) /\
  (forall a b, load_image read_file (ci_input1 i) = Ret (Some a) -> load_image read_file (ci_input2 i) = Ret (Some b) -> ~ same_size a b -> scompare read_file i = Ret Exited).
Proof.
  intros N T read_file i. unfold scompare. split; [|split].
  - intros ->. reflexivity.
  - intros a -> ->. reflexivity.
  - intros a b -> -> NS. cbn [obind]. unfold img_diff. 
    destruct (Nat.eqb_spec (img_width b) (img_width a)) as [W|W], (Nat.eqb_spec (img_height b) (img_height a)) as [H|H]; try reflexivity. exfalso. apply NS. split; auto.
Qed.
Print Assumptions C64_refuses.
(** An image compared with itself: every byte of every pixel written is zero. *)
Theorem C64_self : forall read_file (i : @CompareInputs NumR) a, load_image read_file (ci_input1 i) = Ret (Some a) -> ci_input2 i = ci_input1 i -> ci_map i = None -> consistent a ->
  scompare read_file i = Ret (Wrote (Hdre (save_hdre (mkImage (img_width a) (img_height a) (repeat BLACK (length (img_pixels a))))))) /\
  colour_to_rgbe (N := NumR) (sr BLACK) (sg BLACK) (sb BLACK) = [byte_of 0; byte_of 0; byte_of 0; byte_of 0].
Proof.
  intros read_file i a HA HI HM Ca. unfold scompare. rewrite HI, HA. cbn [obind]. unfold img_diff. rewrite !Nat.eqb_refl. cbn [andb negb]. unfold consistent in *. unfold from_pixels.
  rewrite map_length, combine_length, Ca, Nat.min_id, Nat.eqb_refl. cbn [negb obind]. rewrite HM. split.
  - assert (G : forall l : list (@Spectrum NumR), map (fun p => gray (fabs (radiance (fst p) - radiance (snd p))%num)) (combine l l) = repeat BLACK (length l)).
    { induction l as [|p l IH]; [reflexivity|]. cbn [combine map fst snd length repeat]. rewrite IH. f_equal.
      unfold gray, BLACK. assert (Q : fabs (radiance p - radiance p)%num = f0); [|rewrite Q; reflexivity]. cbn [fabs fsub NumR]. unfold f0. cbn [flit NumR]. unfold Rminus. rewrite Rplus_opp_r, Rabs_R0. lra. }
    rewrite G, <- Ca. reflexivity.
  - apply encode_small. change (top (0/1) (0/1) (0/1) < / 10 ^ 19)%R. destruct (top_spec (0/1) (0/1) (0/1)) as (T1 & T2 & T3).
    assert (Q : top (0/1) (0/1) (0/1) = (0/1)%R) by (unfold top; repeat match goal with |- context [if ?b then _ else _] => destruct b end; unfold Rmax; repeat match goal with |- context [Rle_dec ?a ?b] => destruct (Rle_dec a b) end; reflexivity).
    rewrite Q. assert (0 < / 10 ^ 19)%R by (apply Rinv_0_lt_compat; apply pow_lt; lra). lra.
Qed.
Print Assumptions C64_self.
(** The order of the two images does not matter. *)
Theorem C64_symmetric : forall read_file a b mx mn lg mp x y, load_image (N := NumR) read_file a = Ret (Some x) -> load_image (N := NumR) read_file b = Ret (Some y) ->
  scompare read_file (mkCompare (N := NumR) a b mx mn lg mp) = scompare read_file (mkCompare (N := NumR) b a mx mn lg mp).
Proof.
  intros read_file a b mx mn lg mp x y HA HB. unfold scompare. cbn [ci_input1 ci_input2 ci_max ci_min ci_log ci_map]. rewrite HA, HB. cbn [obind]. rewrite ?HA. cbn [obind].
  rewrite (C32_diff_symmetric y x). reflexivity.
Qed.
Print Assumptions C64_symmetric.
(** The reader accepts files with fewer pixels than they announce (C31); comparing such a file with itself is a panic. *)
Theorem C64_truncated_refuted : forall (N : Num) (T : Trig N) read_file (i : CompareInputs) a,
  load_image read_file (ci_input1 i) = Ret (Some a) -> ci_input2 i = ci_input1 i -> ~ consistent a -> scompare read_file i = Crash.
Proof.
  intros N T read_file i a HA HI NC. unfold scompare. rewrite HI, HA. cbn [obind]. unfold img_diff. rewrite !Nat.eqb_refl. cbn [andb negb]. unfold from_pixels, consistent in *.
  rewrite map_length, combine_length, Nat.min_id. destruct (Nat.eqb_spec (length (img_pixels a)) (img_width a * img_height a)); [contradiction|reflexivity].
Qed.
Print Assumptions C64_truncated_refuted.
Example C64_hyp : exists file file', from_file (N := NumR) file = Ret (Some (mkImage 2 1 [BLACK; BLACK])) /\ consistent (mkImage (N := NumR) 2 1 [BLACK; BLACK]) /\
  from_file (N := NumR) file' = Ret (Some (mkImage 2 1 [])) /\ ~ consistent (mkImage (N := NumR) 2 1 []).
Proof.
  exists (lit "-Y 1 +X 2" ++ NL :: repeat (byte_of 0) 8), (lit "-Y 1 +X 2" ++ [NL]). split; [reflexivity|]. split; [reflexivity|]. split; [reflexivity|]. unfold consistent. cbn. discriminate.
Qed.

(** ** C65 - sfalsecolor *)
Lemma scale_length {N : Num} m : 2 <= length (scale_of m).
Proof. unfold scale_of. rewrite map_length. destruct m; vm_compute; lia. Qed.
(** With both ends of the range given, the colour of each pixel is the one that the chosen scale gives to its luminance, and the
    picture has the size of the image. *)
Theorem C65_data_partial : forall read_file name (lo hi : R) m img, load_image (N := NumR) read_file name = Ret (Some img) -> (0 <= lo < hi)%R ->
  (Z.of_nat (img_width img) < 2 ^ 16)%Z -> (Z.of_nat (img_height img) < 2 ^ 16)%Z ->
  exists colours, Forall2 (fun p c => map_linear_colour (luminance p) lo hi (scale_of m) = Ok_ c) (img_pixels img) colours /\
    sfalsecolor read_file name (Some lo) (Some hi) false m = Ret (Wrote (Jpeg (concat (map data_of colours), Z.of_nat (img_width img), Z.of_nat (img_height img)))).
Proof.
  intros read_file name lo hi m img HI Hr Hw Hh. destruct (C56_data img lo hi (scale_of m) (scale_length m) Hr Hw Hh) as (cs & F2 & E & _). exists cs. split; [exact F2|].
  unfold sfalsecolor. rewrite HI. cbn [obind]. unfold save_map. cbn [out_of]. unfold out_of. rewrite E. reflexivity.
Qed.
Print Assumptions C65_data_partial.
Theorem C65_refuses : forall (N : Num) (T : Trig N) read_file name mn mx lg m, load_image read_file name = Ret None -> sfalsecolor read_file name mn mx lg m = Ret Exited.
Proof. intros. unfold sfalsecolor. rewrite H. reflexivity. Qed.
Print Assumptions C65_refuses.
