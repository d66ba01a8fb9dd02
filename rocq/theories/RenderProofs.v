(** * RenderProofs: every schedule of the workers gives the same image *)
From Verif Require Import Render TracerProofs TracerAux.

Section RenderProofs.
  Context {N : Num} {T : Trig N} {E : Ext} {RG : Gen N} {O : Geo}.
  Variables (nest fuel : nat) (c : Tracer) (s : Scene) (width height : nat) (gen_ray : nat * nat -> Ray * F) (seed : nat -> G).
  Notation pixel := (render_pixel nest fuel c s gen_ray width).
  Notation step := (render_step nest fuel c s width gen_ray).
  Notation steps := (render_steps nest fuel c s width gen_ray).

  (** the colours of the first n pixels of a chunk, as its worker computes them *)
  Fixpoint chunk_run (p n : nat) (aux : Helper) (g : G) : outcome (list Spectrum * Helper * G) :=
    match n with
    | 0%nat => Ret ([], aux, g)
    | S n =>
        run (vs, aux, g) <- chunk_run p n aux g ;;
        run (v, aux, g) <- pixel (p + n)%nat aux g ;;
        Ret (vs ++ [v], aux, g)
    end.
  Notation crun k n := (chunk_run (k * CHUNK) n helper_default (seed k)).
  Lemma chunk_run_length p n : forall aux g vs aux' g', chunk_run p n aux g = Ret (vs, aux', g') -> length vs = n.
  Proof.
    induction n as [|n IH]; intros aux g vs aux' g'; cbn [chunk_run]; [intros H; injection H as <- <- <-; reflexivity|].
    destruct (chunk_run p n aux g) as [[[us a1] g1]| |] eqn:C; cbn [obind]; try discriminate.
    destruct (pixel (p + n) a1 g1) as [[[v a2] g2]| |]; cbn [obind]; try discriminate. intros H. injection H as <- <- <-.
    rewrite app_length, (IH _ _ _ _ _ C). cbn. lia.
  Qed.
  Lemma chunk_run_less p aux g n j : (j <= n)%nat -> (exists x, chunk_run p n aux g = Ret x) -> exists x, chunk_run p j aux g = Ret x.
  Proof.
    induction n as [|n IH]; intros Hj [x H]; [replace j with 0%nat by lia; eauto|].
    destruct (Nat.eq_dec j (S n)) as [->|Hne]; [eauto|]. apply IH; [lia|]. cbn [chunk_run] in H.
    destruct (chunk_run p n aux g) as [y| |]; [eauto|discriminate|discriminate].
  Qed.
  Lemma chunk_run_prefix p aux g n j vs a' g' us b' h' : (j <= n)%nat ->
    chunk_run p n aux g = Ret (vs, a', g') -> chunk_run p j aux g = Ret (us, b', h') -> us = firstn j vs.
  Proof.
    revert vs a' g'. induction n as [|n IH]; intros vs a' g' Hj H1 H2.
    - replace j with 0%nat in * by lia. cbn in H2. injection H2 as <- <- <-. reflexivity.
    - destruct (Nat.eq_dec j (S n)) as [->|Hne].
      + rewrite H1 in H2. assert (Q : us = vs) by congruence. subst us. symmetry. rewrite <- (chunk_run_length _ _ _ _ _ _ _ H1). apply firstn_all.
      + cbn [chunk_run] in H1. destruct (chunk_run p n aux g) as [[[ws a1] g1]| |] eqn:C; cbn [obind] in H1; try discriminate.
        destruct (pixel (p + n) a1 g1) as [[[v a2] g2]| |]; cbn [obind] in H1; try discriminate.
        assert (Q : vs = ws ++ [v]) by congruence. subst vs. rewrite (IH _ _ _ ltac:(lia) eq_refl H2), firstn_app.
        rewrite (chunk_run_length _ _ _ _ _ _ _ C). replace (j - n)%nat with 0%nat by lia. cbn. rewrite app_nil_r. reflexivity.
  Qed.

  Let total := (width * height)%nat.

  Definition stored_at (pixels : list Spectrum) (p : nat) (vs : list Spectrum) : Prop :=
    forall i v, nth_error vs i = Some v -> nth_error pixels (p + i) = Some v.
  Definition worker_inv (pixels : list Spectrum) (k : nat) (w : Worker) : Prop :=
    exists j vs, w_pindex w = (k * CHUNK + j)%nat /\ w_left w = (chunk_length total k - j)%nat /\ (j <= chunk_length total k)%nat /\
      length vs = j /\ stored_at pixels (k * CHUNK) vs /\
      match w_traced w with
      | None => crun k j = Ret (vs, w_aux w, w_gen w)
      | Some v => (j < chunk_length total k)%nat /\ crun k (S j) = Ret (vs ++ [v], w_aux w, w_gen w)
      end.
  Definition inv (st : Rendering) : Prop :=
    length (rd_pixels st) = total /\ length (rd_workers st) = n_chunks total /\
    forall k w, nth_error (rd_workers st) k = Some w -> worker_inv (rd_pixels st) k w.

  Lemma n_chunks_spec k : (k < n_chunks total <-> k * CHUNK < total)%nat.
  Proof.
    unfold n_chunks, CHUNK. split; intros H.
    - pose proof (Nat.div_mod (total + 128 - 1) 128 ltac:(lia)) as D. pose proof (Nat.mod_upper_bound (total + 128 - 1) 128 ltac:(lia)). nia.
    - apply Nat.lt_le_trans with (S k); [lia|]. apply Nat.div_le_lower_bound; lia.
  Qed.
  Lemma start_worker k : nth_error (rd_workers (render_start width height seed)) k =
    if (k <? n_chunks total)%nat then Some (mkWorker (k * CHUNK) (chunk_length total k) None helper_default (seed k)) else None.
  Proof.
    cbn [rd_workers render_start]. fold total. rewrite nth_error_map.
    destruct (Nat.ltb_spec k (n_chunks total)) as [L|L].
    - rewrite (nth_error_nth' _ 0%nat) by (rewrite seq_length; exact L). rewrite seq_nth by exact L. reflexivity.
    - rewrite (proj2 (nth_error_None _ _)) by (rewrite seq_length; exact L). reflexivity.
  Qed.
  Lemma inv_start : inv (render_start width height seed).
  Proof.
    split; [cbn; apply repeat_length|]. split; [cbn; rewrite map_length, seq_length; reflexivity|].
    intros k w H. rewrite start_worker in H. destruct (Nat.ltb_spec k (n_chunks total)) as [L|L]; [|discriminate]. injection H as <-.
    exists 0%nat, []. cbn. split; [lia|]. split; [lia|]. split; [lia|]. split; [reflexivity|]. split; [|reflexivity]. intros [|i] v Q; discriminate Q.
  Qed.

  Lemma set_nth_cases {A} k i (x y : A) l : nth_error (set_nth k x l) i = Some y -> (i = k /\ y = x /\ (k < length l)%nat) \/ (i <> k /\ nth_error l i = Some y).
  Proof.
    intros H. destruct (Nat.eq_dec i k) as [->|Hne].
    - left. destruct (Nat.lt_ge_cases k (length l)) as [L|L].
      + rewrite set_nth_same in H by exact L. injection H as <-. auto.
      + exfalso. assert (Q : nth_error (set_nth k x l) k = None) by (apply nth_error_None; rewrite set_nth_length; exact L). rewrite Q in H. discriminate.
    - right. split; [exact Hne|]. rewrite set_nth_other in H by congruence. exact H.
  Qed.

  Lemma inv_step k st st' : inv st -> step k st = Ret st' -> inv st'.
  Proof.
    intros (HL & HW & HI) H. unfold render_step in H. destruct (nth_error (rd_workers st) k) as [w|] eqn:NW.
    2:{ injection H as <-. split; [exact HL|split; assumption]. }
    destruct (HI k w NW) as (j & vs & P1 & P2 & P3 & P4 & P5 & P6).
    assert (Hk : (k < length (rd_workers st))%nat) by (apply nth_error_Some; rewrite NW; discriminate).
    assert (Hkt : (k * CHUNK < total)%nat) by (apply n_chunks_spec; rewrite <- HW; exact Hk).
    destruct (w_traced w) as [v|] eqn:TW.
    - injection H as <-. destruct P6 as [P6 P7]. split; [cbn; rewrite set_nth_length; exact HL|]. split; [cbn; rewrite set_nth_length; exact HW|].
      assert (Hin : (k * CHUNK + j < length (rd_pixels st))%nat) by (rewrite HL; unfold chunk_length in P6; lia).
      cbn [rd_workers rd_pixels]. rewrite P1. intros i u Hu. destruct (set_nth_cases _ _ _ _ _ Hu) as [(-> & -> & _)|[Hne Hu']].
      + exists (S j), (vs ++ [v]). cbn [w_pindex w_left w_traced w_aux w_gen]. split; [lia|]. split; [lia|]. split; [lia|].
        split; [rewrite app_length; cbn; lia|]. split; [|exact P7].
        intros i x Hx. destruct (Nat.lt_ge_cases i (length vs)) as [L|L].
        * rewrite nth_error_app1 in Hx by exact L. rewrite set_nth_other by lia. apply P5. exact Hx.
        * rewrite nth_error_app2 in Hx by exact L. destruct (i - length vs)%nat as [|q] eqn:Q; [|destruct q; discriminate].
          injection Hx as <-. replace i with j by lia. apply set_nth_same. exact Hin.
      + destruct (HI i u Hu') as (j' & vs' & Q1 & Q2 & Q3 & Q4 & Q5 & Q6). exists j', vs'. do 4 (split; [assumption|]). split; [|assumption].
        intros q x Hx. assert (Hq : (q < length vs')%nat) by (apply nth_error_Some; rewrite Hx; discriminate).
        rewrite set_nth_other; [apply Q5; exact Hx|]. unfold chunk_length, CHUNK in *. nia.
    - destruct (Nat.eqb_spec (w_left w) 0) as [Z0|Z0]; [injection H as <-; split; [exact HL|split; assumption]|].
      destruct (pixel (w_pindex w) (w_aux w) (w_gen w)) as [[[v a2] g2]| |] eqn:PX; cbn [obind] in H; try discriminate. injection H as <-.
      split; [exact HL|]. split; [cbn; rewrite set_nth_length; exact HW|]. cbn [rd_workers rd_pixels].
      intros i u Hu. destruct (set_nth_cases _ _ _ _ _ Hu) as [(-> & -> & _)|[Hne Hu']]; [|apply HI; exact Hu'].
      exists j, vs. cbn [w_pindex w_left w_traced w_aux w_gen]. do 5 (split; [assumption|]). split; [lia|].
      cbn [chunk_run]. rewrite P6. cbn [obind]. rewrite <- P1, PX. reflexivity.
  Qed.
  Lemma inv_steps : forall ks st st', inv st -> steps ks st = Ret st' -> inv st'.
  Proof.
    induction ks as [|k ks IH]; intros st st' HI H; cbn [render_steps] in H; [injection H as <-; exact HI|].
    destruct (step k st) as [st1| |] eqn:Q; cbn [obind] in H; try discriminate. eapply IH; [|exact H]. eapply inv_step; eassumption.
  Qed.

  (** when the workers are done, the pixels are those of the chunks *)
  Definition all_chunks (f : nat -> list Spectrum) : Prop := forall k, (k * CHUNK < total)%nat ->
    exists aux g, crun k (chunk_length total k) = Ret (f k, aux, g).
  Lemma done_pixels st : inv st -> render_done st -> exists f, all_chunks f /\ forall k, (k * CHUNK < total)%nat -> stored_at (rd_pixels st) (k * CHUNK) (f k).
  Proof.
    intros (HL & HW & HI) HD.
    assert (HK : forall k, (k * CHUNK < total)%nat -> exists vs aux g, crun k (chunk_length total k) = Ret (vs, aux, g) /\ stored_at (rd_pixels st) (k * CHUNK) vs).
    { intros k Hk. apply n_chunks_spec in Hk. rewrite <- HW in Hk. apply nth_error_Some in Hk. destruct (nth_error (rd_workers st) k) as [w|] eqn:NW; [|contradiction].
      destruct (HI k w NW) as (j & vs & P1 & P2 & P3 & P4 & P5 & P6). unfold render_done in HD. rewrite Forall_forall in HD.
      destruct (HD w (nth_error_In _ _ NW)) as [D1 D2]. rewrite D2 in P6. replace (chunk_length total k) with j by lia. eauto. }
    exists (fun k => match crun k (chunk_length total k) with Ret (vs, _, _) => vs | _ => [] end). split.
    - intros k Hk. destruct (HK k Hk) as (vs & aux & g & -> & _). eauto.
    - intros k Hk. destruct (HK k Hk) as (vs & aux & g & -> & HS). exact HS.
  Qed.
  Lemma chunk_length_pos k : (k * CHUNK < total)%nat -> (0 < chunk_length total k)%nat.
  Proof. unfold chunk_length, CHUNK. lia. Qed.
  Lemma done_nth st f : length (rd_pixels st) = total -> all_chunks f -> (forall k, (k * CHUNK < total)%nat -> stored_at (rd_pixels st) (k * CHUNK) (f k)) ->
    forall i, (i < total)%nat -> nth_error (rd_pixels st) i = nth_error (f (i / CHUNK)%nat) (i mod CHUNK)%nat.
  Proof.
    intros HL HA HS i Hi. pose proof (Nat.div_mod i CHUNK ltac:(discriminate)) as D. pose proof (Nat.mod_upper_bound i CHUNK ltac:(discriminate)) as M.
    assert (Hk : ((i / CHUNK) * CHUNK < total)%nat) by lia. destruct (HA _ Hk) as (aux & g & HR). pose proof (chunk_run_length _ _ _ _ _ _ _ HR) as LR.
    destruct (nth_error (f (i / CHUNK)%nat) (i mod CHUNK)) as [v|] eqn:NV.
    - rewrite <- (HS _ Hk _ _ NV). f_equal. lia.
    - exfalso. apply nth_error_None in NV. rewrite LR in NV. unfold chunk_length in NV. lia.
  Qed.

  (** any two complete schedules agree, and none gets into trouble if one does not *)
  Lemma step_returns k st : (forall k, (k * CHUNK < total)%nat -> exists x, crun k (chunk_length total k) = Ret x) -> inv st -> exists st', step k st = Ret st'.
  Proof.
    intros HA (HL & HW & HI). unfold render_step. destruct (nth_error (rd_workers st) k) as [w|] eqn:NW; [|eauto].
    destruct (HI k w NW) as (j & vs & P1 & P2 & P3 & P4 & P5 & P6). destruct (w_traced w) as [v|]; [eauto|].
    destruct (Nat.eqb_spec (w_left w) 0) as [Z0|Z0]; [eauto|].
    assert (Hkt : (k * CHUNK < total)%nat) by (apply n_chunks_spec; rewrite <- HW; apply nth_error_Some; rewrite NW; discriminate).
    destruct (chunk_run_less (k * CHUNK) helper_default (seed k) (chunk_length total k) (S j) ltac:(lia) (HA k Hkt)) as [x Hx].
    cbn [chunk_run] in Hx. rewrite P6 in Hx. cbn [obind] in Hx. rewrite <- P1 in Hx.
    destruct (pixel (w_pindex w) (w_aux w) (w_gen w)) as [[[v a2] g2]| |]; cbn [obind] in Hx; try discriminate. cbn [obind]. eauto.
  Qed.
  Lemma steps_return : (forall k, (k * CHUNK < total)%nat -> exists x, crun k (chunk_length total k) = Ret x) ->
    forall ks st, inv st -> exists st', steps ks st = Ret st'.
  Proof.
    intros HA. induction ks as [|k ks IH]; intros st HI; cbn [render_steps]; [eauto|].
    destruct (step_returns k st HA HI) as [st1 H1]. rewrite H1. cbn [obind]. apply IH. eapply inv_step; eassumption.
  Qed.

  (** ** how many steps a schedule needs *)
  Definition remaining (w : Worker) : nat := (2 * w_left w - (if w_traced w then 1 else 0))%nat.
  Lemma step_remaining k st st' : inv st -> step k st = Ret st' -> forall i,
    option_map remaining (nth_error (rd_workers st') i) =
    option_map (fun w => remaining w - (if Nat.eqb k i then 1 else 0))%nat (nth_error (rd_workers st) i).
  Proof.
    intros (HL & HW & HI) H i. unfold render_step in H. destruct (nth_error (rd_workers st) k) as [w|] eqn:NW.
    2:{ injection H as <-. destruct (Nat.eqb_spec k i) as [->|Hne]; [rewrite NW; reflexivity|].
        destruct (nth_error _ i); cbn; [f_equal; lia|reflexivity]. }
    assert (Hk : (k < length (rd_workers st))%nat) by (apply nth_error_Some; rewrite NW; discriminate).
    destruct (HI k w NW) as (j & vs & P1 & P2 & P3 & P4 & P5 & P6).
    assert (Other : forall x l, k <> i -> option_map remaining (nth_error (set_nth k x l) i) = option_map (fun w => remaining w - (if Nat.eqb k i then 1 else 0))%nat (nth_error l i)).
    { intros x l Hne. rewrite set_nth_other by exact Hne. rewrite (proj2 (Nat.eqb_neq k i) Hne). destruct (nth_error l i); cbn; [f_equal; lia|reflexivity]. }
    destruct (w_traced w) as [v|] eqn:TW.
    - injection H as <-. cbn [rd_workers]. destruct (Nat.eq_dec k i) as [->|Hne]; [|apply Other; exact Hne].
      rewrite set_nth_same, NW, Nat.eqb_refl by exact Hk. cbn. unfold remaining. rewrite TW. cbn. f_equal. lia.
    - destruct (Nat.eqb_spec (w_left w) 0) as [Z0|Z0].
      + injection H as <-. destruct (Nat.eq_dec k i) as [->|Hne].
        * rewrite NW. cbn. unfold remaining. rewrite Z0. reflexivity.
        * rewrite (proj2 (Nat.eqb_neq k i) Hne). destruct (nth_error (rd_workers st) i); cbn; [f_equal; lia|reflexivity].
      + destruct (pixel _ _ _) as [[[v a2] g2]| |]; cbn [obind] in H; try discriminate. injection H as <-. cbn [rd_workers].
        destruct (Nat.eq_dec k i) as [->|Hne]; [|apply Other; exact Hne].
        rewrite set_nth_same, NW, Nat.eqb_refl by exact Hk. cbn. unfold remaining. rewrite TW. cbn. f_equal. lia.
  Qed.
  Lemma steps_remaining : forall ks st st', inv st -> steps ks st = Ret st' -> forall i,
    option_map remaining (nth_error (rd_workers st') i) = option_map (fun w => remaining w - count_occ Nat.eq_dec ks i)%nat (nth_error (rd_workers st) i).
  Proof.
    induction ks as [|k ks IH]; intros st st' HI H i; cbn [render_steps] in H.
    - injection H as <-. destruct (nth_error _ i); cbn; [f_equal; lia|reflexivity].
    - destruct (step k st) as [st1| |] eqn:Q; cbn [obind] in H; try discriminate.
      pose proof (inv_step _ _ _ HI Q) as HI1. specialize (IH _ _ HI1 H i). pose proof (step_remaining _ _ _ HI Q i) as R1.
      destruct (nth_error (rd_workers st') i) as [w'|], (nth_error (rd_workers st1) i) as [w1|], (nth_error (rd_workers st) i) as [w|]; cbn in *; try discriminate; try reflexivity.
      injection IH as IH. injection R1 as R1. f_equal. destruct (Nat.eqb_spec k i) as [->|Hne].
      + destruct (Nat.eq_dec i i); [lia|contradiction].
      + destruct (Nat.eq_dec k i); [contradiction|lia].
  Qed.
  Definition enough (ks : list nat) : Prop := forall k, (k * CHUNK < total)%nat -> (2 * chunk_length total k <= count_occ Nat.eq_dec ks k)%nat.
  Lemma enough_done ks st : enough ks -> steps ks (render_start width height seed) = Ret st -> render_done st.
  Proof.
    intros HE H. pose proof (inv_steps _ _ _ inv_start H) as (_ & HW & HI). unfold render_done. rewrite Forall_forall. intros w Hw.
    apply In_nth_error in Hw as [k NW]. assert (Hk : (k < n_chunks total)%nat) by (rewrite <- HW; apply nth_error_Some; rewrite NW; discriminate).
    pose proof (steps_remaining _ _ _ inv_start H k) as R. rewrite NW, start_worker in R. rewrite (proj2 (Nat.ltb_lt _ _) Hk) in R. cbn [option_map] in R.
    injection R as R. pose proof (HE k (proj1 (n_chunks_spec k) Hk)) as HC. unfold remaining in R. cbn [w_left w_traced] in R.
    destruct (HI k w NW) as (j & vs & P1 & P2 & P3 & P4 & P5 & P6). destruct (w_traced w) as [v|]; [destruct P6; lia|]. split; [lia|reflexivity].
  Qed.
  Lemma one_by_one_enough : enough (one_by_one width height).
  Proof.
    intros k Hk. unfold one_by_one. fold total. apply n_chunks_spec in Hk. revert Hk. generalize (n_chunks total). intros n Hk.
    assert (HG : forall a n, (a <= k < a + n)%nat -> (2 * chunk_length total k <= count_occ Nat.eq_dec (flat_map (fun k => repeat k (2 * chunk_length total k)) (seq a n)) k)%nat).
    { clear. intros a n; revert a; induction n as [|n IH]; intros a Ha; [lia|]. cbn [seq flat_map]. rewrite count_occ_app.
      destruct (Nat.eq_dec a k) as [->|Hne].
      - assert (Q : forall m, count_occ Nat.eq_dec (repeat k m) k = m) by (induction m; cbn; [reflexivity|destruct (Nat.eq_dec k k); [congruence|contradiction]]). rewrite Q. lia.
      - specialize (IH (S a) ltac:(lia)). lia. }
    apply HG. lia.
  Qed.

  (** ** the colours of a chunk, whatever is in its buffers *)
  Lemma pixel_helper i aux g v aux' g' : length (h_rays aux) = 15%nat -> pixel i aux g = Ret (v, aux', g') ->
    length (h_rays aux') = 15%nat /\ exists p pdf r' aux2, pixel_position width i = Ret p /\
      trace_ray nest fuel c s (set_value (fst (gen_ray p)) (snd (gen_ray p))) helper_default g = Ret (v, pdf, r', aux2, g').
  Proof.
    intros HL. unfold render_pixel. destruct (pixel_position width i) as [p| |]; cbn [obind]; try discriminate.
    destruct (gen_ray p) as [ray weight] eqn:GR. cbn [fst snd].
    pose proof (trace_ray_forgets fuel c s nest (set_value ray weight) aux helper_default g HL) as AL.
    destruct (trace_ray nest fuel c s (set_value ray weight) aux g) as [[[[[v1 pdf] r1] a1] g1]| |] eqn:TR; cbn [obind]; try discriminate.
    destruct (trace_ray nest fuel c s (set_value ray weight) helper_default g) as [[[[[v2 pdf2] r2] a2] g2]| |] eqn:TR2; cbn in AL; try contradiction.
    intros H. assert (Q : v = v1 /\ aux' = a1 /\ g' = g1) by (split; [congruence|split; congruence]). destruct Q as (-> & -> & ->).
    destruct AL as (-> & -> & -> & -> & _). pose proof (trace_ray_frame fuel c s nest _ _ _ _ _ _ _ _ TR) as [HL1 _].
    split; [congruence|]. do 4 eexists. split; [reflexivity|]. rewrite GR. exact TR2.
  Qed.
End RenderProofs.
