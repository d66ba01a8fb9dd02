(** * Property C49: rendering an image in parallel *)
From Coq Require Import SpecFloat Reals Lra Lia.
From Flocq Require Import Core BinarySingleNaN.
From Verif Require Import Num NumR NumSF NumSF32 SFBridge Render TracerProofs TracerAux RenderProofs CameraProofs TracerCorridor TracerLone TracerScenes P_Tracer P_Camera P_Triangle P_Bvh BvhExamples SpecGeom TriangleProofs.
Open Scope nat_scope.

(** ** specification *)
(** The colours of consecutive pixels, starting with number i and the state g of the generator: each pixel is the colour of tracing
    the camera's ray for its column (i mod width) and row (i / width), with FRESH buffers, and the next one goes on with the
    generator.  (The ray's value is the weight given by the camera.) *)
Fixpoint colours {N : Num} {T : Trig N} {E : Ext} {RG : Gen N} {O : Geo} nest fuel (c : Tracer) (s : Scene) (width : nat) (camera : nat * nat -> Ray * F)
    (i : nat) (g : G) (vs : list Spectrum) : Prop :=
  match vs with
  | [] => True
  | v :: vs =>
      let '(ray, weight) := camera (i mod width, i / width) in
      exists pdf r' aux' g', trace_ray nest fuel c s (set_value ray weight) helper_default g = Ret (v, pdf, r', aux', g') /\
      colours nest fuel c s width camera (S i) g' vs
  end.
(** the rounded division used for the row of a pixel is precise enough *)
Definition positions_ok (N : Num) (width height : nat) : Prop := forall i, i < width * height -> pixel_position width i = Ret (i mod width, i / width).


(** the same, with the final state of the generator *)
Fixpoint colours_to {N : Num} {T : Trig N} {E : Ext} {RG : Gen N} {O : Geo} nest fuel (c : Tracer) (s : Scene) (width : nat) (camera : nat * nat -> Ray * F)
    (i : nat) (g : G) (vs : list Spectrum) (g_end : G) : Prop :=
  match vs with
  | [] => g = g_end
  | v :: vs =>
      let '(ray, weight) := camera (i mod width, i / width) in
      exists pdf r' aux' g', trace_ray nest fuel c s (set_value ray weight) helper_default g = Ret (v, pdf, r', aux', g') /\
      colours_to nest fuel c s width camera (S i) g' vs g_end
  end.
Section Colours.
  Context {N : Num} {T : Trig N} {E : Ext} {RG : Gen N} {O : Geo}.
  Variables (nest fuel : nat) (c : Tracer) (s : Scene) (width : nat) (camera : nat * nat -> Ray * F).
  Notation cols := (colours nest fuel c s width camera).
  Notation cols_to := (colours_to nest fuel c s width camera).
  Lemma colours_forget vs : forall i g g1, cols_to i g vs g1 -> cols i g vs.
  Proof.
    induction vs as [|v vs IH]; intros i g g1; cbn [colours colours_to]; [trivial|]. destruct (camera _) as [ray weight].
    intros (pdf & r' & aux' & g' & H & HC). exists pdf, r', aux', g'. split; [exact H|]. eapply IH. exact HC.
  Qed.
  Lemma colours_snoc v pdf r' aux' g2 vs : forall i g g1, cols_to i g vs g1 ->
    trace_ray nest fuel c s (set_value (fst (camera ((i + length vs) mod width, (i + length vs) / width))) (snd (camera ((i + length vs) mod width, (i + length vs) / width))))
      helper_default g1 = Ret (v, pdf, r', aux', g2) -> cols_to i g (vs ++ [v]) g2.
  Proof.
    induction vs as [|u vs IH]; intros i g g1; cbn [colours_to app length].
    - intros -> H. rewrite Nat.add_0_r in H. destruct (camera _) as [ray weight]. exists pdf, r', aux', g2. split; [exact H|reflexivity].
    - replace (i + S (length vs)) with (S i + length vs) by lia. intros HC H. destruct (camera (i mod width, i / width)) as [ray weight]. destruct HC as (pdf1 & r1 & aux1 & g3 & H1 & HC).
      exists pdf1, r1, aux1, g3. split; [exact H1|]. eapply IH; eassumption.
  Qed.
  Lemma chunk_colours height g0 k : positions_ok N width height -> forall n, n <= chunk_length (width * height) k -> forall vs aux g,
    chunk_run nest fuel c s width camera (k * CHUNK) n helper_default g0 = Ret (vs, aux, g) ->
    length (h_rays aux) = 15 /\ cols_to (k * 128) g0 vs g.
  Proof.
    intros HPos. induction n as [|n IH]; intros Hn vs aux g HR; cbn [chunk_run] in HR.
    - assert (Q : vs = [] /\ aux = helper_default /\ g = g0) by (split; [congruence|split; congruence]). destruct Q as (-> & -> & ->). split; reflexivity.
    - destruct (chunk_run _ _ _ _ _ _ _ n _ _) as [[[us a1] g1]| |] eqn:CR; cbn [obind] in HR; try discriminate.
      destruct (render_pixel _ _ _ _ _ _ _ _ _) as [[[v a2] g2]| |] eqn:PX; cbn [obind] in HR; try discriminate.
      assert (Q : vs = us ++ [v] /\ aux = a2 /\ g = g2) by (split; [congruence|split; congruence]). destruct Q as (-> & -> & ->).
      destruct (IH ltac:(lia) _ _ _ eq_refl) as (L1 & C1).
      destruct (pixel_helper nest fuel c s width camera _ _ _ _ _ _ L1 PX) as (L2 & p & pdf & r' & aux2 & PP & HT).
      assert (Hi : k * 128 + n < width * height) by (unfold chunk_length, CHUNK in Hn; lia).
      change (k * CHUNK + n) with (k * 128 + n) in PP. rewrite (HPos _ Hi) in PP. assert (p = ((k * 128 + n) mod width, (k * 128 + n) / width)) by congruence. subst p.
      split; [exact L2|]. eapply colours_snoc; [exact C1|]. apply chunk_run_length in CR. rewrite CR. exact HT.
  Qed.
End Colours.
Lemma nth_error_slice {A} a n (l : list A) j : j < n -> nth_error (firstn n (skipn a l)) j = nth_error l (a + j).
Proof.
  assert (NS : forall (l : list A) j, nth_error (skipn a l) j = nth_error l (a + j)).
  { induction a as [|a' IH]; intros l' j'; [reflexivity|]. destruct l'; [destruct j'; reflexivity|]. apply IH. }
  rewrite <- NS. generalize (skipn a l). clear. revert j. induction n as [|n IH]; intros j l Hj; [lia|]. destruct l; [destruct j; reflexivity|]. destruct j; [reflexivity|]. cbn. apply IH. lia.
Qed.
Lemma done_slice {N : Num} {T : Trig N} {E : Ext} {RG : Gen N} {O : Geo} nest fuel (c : Tracer) (s : Scene) width height camera (seed : nat -> G) st :
  inv nest fuel c s width height camera seed st -> render_done st -> forall k, k * 128 < width * height ->
  exists aux g, chunk_run nest fuel c s width camera (k * CHUNK) (chunk_length (width * height) k) helper_default (seed k) = Ret (firstn 128 (skipn (k * 128) (rd_pixels st)), aux, g).
Proof.
  intros HI HD k Hk. destruct (done_pixels nest fuel c s width height camera seed st HI HD) as (f & HA & HS). destruct HI as (HL & _).
  destruct (HA k Hk) as (aux & g & HR). pose proof HR as LR; apply chunk_run_length in LR. exists aux, g.
  assert (FS : firstn 128 (skipn (k * 128) (rd_pixels st)) = f k); [|rewrite FS; exact HR].
  apply nth_ext with (d := BLACK) (d' := BLACK).
  - rewrite firstn_length, skipn_length, HL, LR. unfold chunk_length, CHUNK. lia.
  - rewrite firstn_length, skipn_length, HL. intros j Hj.
    assert (Lj : j < length (f k)) by (rewrite LR; unfold chunk_length, CHUNK; lia).
    destruct (nth_error (f k) j) as [v|] eqn:NV; [|apply nth_error_None in NV; lia].
    rewrite (nth_error_nth _ _ _ NV). apply nth_error_nth. rewrite nth_error_slice by lia. apply (HS k Hk j v NV).
Qed.

(** ** every pixel is traced at its own film position, whatever the schedule *)
Theorem C49_pixels : forall (N : Num) (T : Trig N) (E : Ext) (RG : Gen N) (O : Geo) nest fuel (c : Tracer) (s : Scene) width height camera (seed : nat -> G) schedule st,
  positions_ok N width height ->
  render_steps nest fuel c s width camera schedule (render_start width height seed) = Ret st -> render_done st ->
  length (rd_pixels st) = width * height /\
  forall k, k * 128 < width * height -> colours nest fuel c s width camera (k * 128) (seed k) (firstn 128 (skipn (k * 128) (rd_pixels st))).
Proof.
  intros N T E RG O nest fuel c s width height camera seed schedule st HPos H HD.
  pose proof (inv_steps nest fuel c s width height camera seed _ _ _ (inv_start nest fuel c s width height camera seed) H) as HI.
  split; [apply HI|]. intros k Hk. destruct (done_slice _ _ _ _ _ _ _ _ _ HI HD k Hk) as (aux & g & HR).
  eapply colours_forget. eapply (chunk_colours nest fuel c s width camera height); [exact HPos|apply le_n|exact HR].
Qed.
Print Assumptions C49_pixels.

(** the positions are right in exact arithmetic, and in binary64 for every image of at most 2^53 pixels *)
Theorem C49_positions_real : forall width height, (Z.of_nat (width * height) < 2 ^ 64)%Z -> positions_ok NumR width height.
Proof.
  intros width height HB i Hi. assert (Hw : 0 < width) by (destruct width; [cbn in Hi; lia|lia]).
  pose proof (Nat.div_mod i width ltac:(lia)) as D. pose proof (Nat.mod_upper_bound i width ltac:(lia)) as M.
  unfold pixel_position. change (ftrunc 0 USIZE_MAX (fdiv (fofZ (Z.of_nat i)) (fofZ (Z.of_nat width)))) with (floor_usize (N := NumR) (IZR (Z.of_nat i) / IZR (Z.of_nat width))%R).
  assert (W0 : (0 < INR width)%R) by (apply lt_0_INR; exact Hw).
  rewrite (floor_usize_spec _ (i / width)).
  - rewrite Nat2Z.id. destruct (Nat.ltb_spec i (i / width * width)) as [L|L]; [nia|]. f_equal. f_equal. nia.
  - nia.
  - rewrite <- !INR_IZR_INZ. split.
    + apply (Rmult_le_reg_r (INR width)); [exact W0|]. unfold Rdiv. rewrite Rmult_assoc, Rinv_l, Rmult_1_r, <- mult_INR by lra. apply le_INR. nia.
    + apply (Rmult_lt_reg_r (INR width)); [exact W0|]. unfold Rdiv. rewrite Rmult_assoc, Rinv_l, Rmult_1_r by lra. rewrite <- (S_INR (i / width)), <- mult_INR. apply lt_INR. nia.
Qed.
Print Assumptions C49_positions_real.
Theorem C49_positions_binary64 : forall width height, (Z.of_nat (width * height) <= 2 ^ 53)%Z -> positions_ok NumSF width height.
Proof.
  intros width height HB i Hi. assert (Hw : 0 < width) by (destruct width; [cbn in Hi; lia|lia]).
  assert (Hww : width <= width * height) by (destruct height; nia).
  pose proof (Nat.div_mod i width ltac:(lia)) as D. pose proof (Nat.mod_upper_bound i width ltac:(lia)) as M.
  unfold pixel_position. cbn [ftrunc fdiv fofZ NumSF]. unfold NumSF.prec, NumSF.emax.
  destruct (div_floor (Z.of_nat i) (Z.of_nat width)) as (b & -> & HF & HP & HV); [lia|lia|].
  rewrite trunc_floor by (try assumption; unfold USIZE_MAX; lia). rewrite HV, <- Nat2Z.inj_div.
  rewrite Z.min_r by (unfold USIZE_MAX; nia). rewrite Nat2Z.id.
  destruct (Nat.ltb_spec i (i / width * width)) as [L|L]; [nia|]. f_equal. f_equal. nia.
Qed.
Print Assumptions C49_positions_binary64.
(** With the feature `float` (binary32) images of more than 2^24 pixels go wrong: in an image of 8193 x 2048 pixels (about 17 million)
    the last pixel is given a row that does not exist, and its column underflows. *)
Theorem C49_positions_binary32_refuted : exists width height i, (Z.of_nat width = 8193 /\ Z.of_nat height = 2048 /\ Z.of_nat i = 8193 * 2048 - 1)%Z /\ i < width * height /\
  pixel_position (N := NumSF32) width i = Crash.
Proof.
  exists (Z.to_nat 8193), (Z.to_nat 2048), (Z.to_nat (8193 * 2048 - 1)).
  rewrite !Z2Nat.id by lia. split; [repeat split|]. split.
  { apply Nat2Z.inj_lt. rewrite Nat2Z.inj_mul, !Z2Nat.id by lia. lia. }
  unfold pixel_position. rewrite !Z2Nat.id by lia.
  assert (Y : ftrunc (Num := NumSF32) 0 USIZE_MAX (fdiv (fofZ (8193 * 2048 - 1)) (fofZ 8193)) = 2048%Z) by (vm_compute; reflexivity). rewrite Y.
  destruct (Nat.ltb_spec (Z.to_nat (8193 * 2048 - 1)) (Z.to_nat 2048 * Z.to_nat 8193)) as [L|L]; [reflexivity|exfalso].
  apply Nat2Z.inj_le in L. rewrite Nat2Z.inj_mul, !Z2Nat.id in L by lia. lia.
Qed.
Print Assumptions C49_positions_binary32_refuted.

(** ** the schedule does not matter *)
(** Once the generators of the chunks are given: if some complete run of the workers returns, then every run of them, complete or
    not, goes through without a panic, every complete one ends with the same pixels, and every schedule that gives each worker two
    steps per pixel is complete.  In particular this is so for the sequential program. *)
Theorem C49_schedule : forall (N : Num) (T : Trig N) (E : Ext) (RG : Gen N) (O : Geo) nest fuel (c : Tracer) (s : Scene) width height camera (seed : nat -> G) schedule st,
  render_steps nest fuel c s width camera schedule (render_start width height seed) = Ret st -> render_done st ->
  (forall schedule', exists st', render_steps nest fuel c s width camera schedule' (render_start width height seed) = Ret st' /\
     (render_done st' -> rd_pixels st' = rd_pixels st) /\
     ((forall k, k * 128 < width * height -> 256 <= count_occ Nat.eq_dec schedule' k) -> render_done st')) /\
  render_sequential nest fuel c s width height camera seed = Ret (mkImage width height (rd_pixels st)).
Proof.
  intros N T E RG O nest fuel c s width height camera seed schedule st H HD.
  pose proof (inv_start nest fuel c s width height camera seed) as I0.
  pose proof (inv_steps nest fuel c s width height camera seed _ _ _ I0 H) as HI.
  assert (HA : forall k, k * CHUNK < width * height -> exists x, chunk_run nest fuel c s width camera (k * CHUNK) (chunk_length (width * height) k) helper_default (seed k) = Ret x).
  { intros k Hk. destruct (done_slice _ _ _ _ _ _ _ _ _ HI HD k Hk) as (aux & g & HR). eauto. }
  assert (Same : forall st', inv nest fuel c s width height camera seed st' -> render_done st' -> rd_pixels st' = rd_pixels st).
  { intros st' HI' HD'. destruct (done_pixels _ _ _ _ _ _ _ _ _ HI HD) as (f & A1 & S1), (done_pixels _ _ _ _ _ _ _ _ _ HI' HD') as (f' & A2 & S2).
    pose proof HI as (L1 & _). pose proof HI' as (L2 & _).
    apply nth_ext with (d := BLACK) (d' := BLACK); [congruence|]. rewrite L2. intros i Hi.
    assert (Hk : i / CHUNK * CHUNK < width * height) by (pose proof (Nat.div_mod i CHUNK ltac:(discriminate)); lia).
    destruct (A1 _ Hk) as (a1 & g1 & Q1), (A2 _ Hk) as (a2 & g2 & Q2). assert (FF : f (i / CHUNK) = f' (i / CHUNK)) by congruence.
    pose proof (done_nth _ _ _ _ _ _ _ _ st f L1 A1 S1 i Hi) as D1. pose proof (done_nth _ _ _ _ _ _ _ _ st' f' L2 A2 S2 i Hi) as D2. rewrite <- FF, <- D1 in D2.
    destruct (nth_error (rd_pixels st) i) as [v|] eqn:NV; [|apply nth_error_None in NV; lia].
    rewrite (nth_error_nth _ _ _ NV). symmetry. rewrite (nth_error_nth _ _ _ D2). reflexivity. }
  assert (Go : forall schedule', exists st', render_steps nest fuel c s width camera schedule' (render_start width height seed) = Ret st' /\
     inv nest fuel c s width height camera seed st').
  { intros ks. destruct (steps_return _ _ _ _ _ _ _ _ HA ks _ I0) as [st' H']. exists st'. split; [exact H'|]. exact (inv_steps nest fuel c s width height camera seed _ _ _ I0 H'). }
  split.
  - intros ks. destruct (Go ks) as (st' & H' & HI'). exists st'. split; [exact H'|]. split; [apply Same; exact HI'|].
    intros HC. eapply (enough_done nest fuel c s width height camera seed); [|exact H']. intros k Hk. specialize (HC k Hk). unfold chunk_length, CHUNK. lia.
  - unfold render_sequential. destruct (Go (one_by_one width height)) as (st' & H' & HI'). rewrite H'. cbn [obind].
    rewrite Same; [|exact HI'|]. 2:{ eapply (enough_done nest fuel c s width height camera seed); [apply one_by_one_enough|exact H']. }
    unfold from_pixels. destruct HI as (HL & _). rewrite HL, Nat.eqb_refl. reflexivity.
Qed.
Print Assumptions C49_schedule.

(** When tracing always returns (see C44_dark_returns_partial), so does rendering. *)
Theorem C49_returns : forall (N : Num) (T : Trig N) (E : Ext) (RG : Gen N) (O : Geo) nest fuel (c : Tracer) (s : Scene) width height camera (seed : nat -> G),
  positions_ok N width height ->
  (forall r aux g, length (h_rays aux) = 15 -> exists x, trace_ray nest fuel c s r aux g = Ret x) ->
  exists st, render_steps nest fuel c s width camera (one_by_one width height) (render_start width height seed) = Ret st /\ render_done st /\
    render_sequential nest fuel c s width height camera seed = Ret (mkImage width height (rd_pixels st)).
Proof.
  intros N T E RG O nest fuel c s width height camera seed HPos HT.
  pose proof (inv_start nest fuel c s width height camera seed) as I0.
  assert (HA : forall k, k * CHUNK < width * height -> exists x, chunk_run nest fuel c s width camera (k * CHUNK) (chunk_length (width * height) k) helper_default (seed k) = Ret x).
  { intros k Hk. assert (G : forall n, n <= chunk_length (width * height) k -> exists vs aux g, chunk_run nest fuel c s width camera (k * CHUNK) n helper_default (seed k) = Ret (vs, aux, g) /\ length (h_rays aux) = 15).
    { induction n as [|n IH]; intros Hn; [do 3 eexists; split; reflexivity|]. destruct (IH ltac:(lia)) as (vs & aux & g & HR & HL). cbn [chunk_run]. rewrite HR. cbn [obind].
      assert (Hi : k * CHUNK + n < width * height) by (unfold chunk_length, CHUNK in *; lia).
      unfold render_pixel. rewrite (HPos _ Hi). cbn [obind]. destruct (camera _) as [ray weight].
      destruct (HT (set_value ray weight) aux g HL) as [[[[[v pdf] r'] aux'] g'] H]. rewrite H. cbn [obind]. do 3 eexists. split; [reflexivity|].
      destruct (trace_ray_frame fuel c s nest _ _ _ _ _ _ _ _ H) as [Q _]. congruence. }
    destruct (G _ (le_n _)) as (vs & aux & g & H & _). eauto. }
  destruct (steps_return _ _ _ _ _ _ _ _ HA (one_by_one width height) _ I0) as [st H]. exists st. split; [exact H|]. unfold render_sequential. rewrite H. cbn [obind].
  split; [eapply (enough_done nest fuel c s width height camera seed); [apply one_by_one_enough|exact H]|].
  destruct (inv_steps nest fuel c s width height camera seed _ _ _ I0 H) as (HL & _). unfold from_pixels. rewrite HL, Nat.eqb_refl. reflexivity.
Qed.
Print Assumptions C49_returns.
(* the corridor of gray walls, rendered at 40 x 30 (ten chunks) with draws of one half and any camera, meets the hypotheses of all
   the theorems of this file *)
Example C49_hyp : exists fuel s c, made (E := ext_example) (corridor gray_wall) s /\ positions_ok NumR 40 30 /\ forall camera, exists st,
  render_steps (RG := constant (1/2)) (O := geo_example) (E := ext_example) 10 fuel c s 40 camera (one_by_one 40 30) (render_start (RG := constant (1/2)) 40 30 (fun _ => tt)) = Ret st /\ render_done st.
Proof.
  destruct (C44_dark_hyp) as (s0 & HP & HM & HS & H1 & H2 & H3 & H4).
  pose (c := @mkTracer NumR 3 10 5 (1/1000)%R 1%R).
  assert (HPp : @perpendicular_ok geo_example). { intros v Hv. discriminate. }
  assert (Pos : positions_ok NumR 40 30) by (apply C49_positions_real; reflexivity).
  destruct (C44_dark_returns_partial ext_example (constant (1/2)) geo_example _ s0 ext_example_ok HPp HP HM HS H1 H2 H3 H4) as (s & HMd & HR).
  exists (2 * length (a_tri (sc_arrays s0)) + 5), s, c. split; [exact HMd|]. split; [exact Pos|]. intros camera.
  destruct (C49_returns NumR TrigR ext_example (constant (1/2)) geo_example 10 (2 * length (a_tri (sc_arrays s0)) + 5) c s 40 30 camera (fun _ => tt) Pos) as (st & Q1 & Q2 & _).
  - intros r aux g HL. destruct (HR c) with (r := r) (aux := aux) (g := g) (nest := 10) (fuel := 2 * length (a_tri (sc_arrays s0)) + 5) as (li & r' & aux' & g' & H).
    + intros g0. cbn. apply Rltb_is_true. lra.
    + cbn. lia.
    + exact HL.
    + cbn. lia.
    + lia.
    + cbn. lia.
    + lia.
    + eauto.
  - exists st. split; assumption.
Qed.
