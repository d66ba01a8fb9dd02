(** * Proofs about the HDR file reader (any arithmetic) *)
From Verif Require Import Text TextProofs Colour Image SpecImage.
Open Scope nat_scope.

Lemma one_line_forall l : one_line l <-> Forall (fun c => c <> NL) l.
Proof. unfold one_line. rewrite Forall_forall. split; [intros H x Hx ->; contradiction|intros H Hx; exact (H NL Hx eq_refl)]. Qed.
Lemma begins_spec l p : starts_with l p = true <-> begins l p.
Proof. apply starts_with_spec. Qed.
Lemma not_begins l p : starts_with l p = false <-> ~ begins l p.
Proof. rewrite <- begins_spec. destruct (starts_with l p); split; intros H; try congruence; try contradiction; try discriminate. Qed.

(** joining what was split *)
Fixpoint join_with (seps : list ascii) (ws : list bytes) : bytes :=
  match ws, seps with
  | [], _ => []
  | w :: ws, s :: seps => match ws with [] => w | _ => w ++ s :: join_with seps ws end
  | w :: ws, [] => w
  end.
Lemma split_on_inv p l w ws : split_on p l = w :: ws ->
  Forall (fun c => p c = false) w /\
  match ws with [] => l = w | _ => exists c l', p c = true /\ l = w ++ c :: l' /\ split_on p l' = ws end.
Proof.
  revert w ws. induction l as [|c l IH]; intros w ws; cbn.
  - intros E. injection E as <- <-. split; [constructor|reflexivity].
  - destruct (p c) eqn:Hc.
    + intros E. injection E as <- <-. split; [constructor|].
      destruct (split_on p l) as [|x xs] eqn:Es; [exact (False_ind _ (split_on_nonempty p l Es))|].
      exists c, l. repeat split; auto.
    + destruct (split_on p l) as [|x xs] eqn:Es; [exact (False_ind _ (split_on_nonempty p l Es))|].
      intros E. injection E as <- <-. destruct (IH x xs eq_refl) as [F M]. split; [constructor; assumption|].
      destruct xs as [|y ys]; [rewrite M; reflexivity|]. destruct M as (d & l' & H1 & -> & H3). exists d, l'. auto.
Qed.

(** ** the format line *)
Lemma eq_not l : Forall (fun c => beqb "="%char c = false) l <-> no_equals l.
Proof.
  unfold no_equals. rewrite Forall_forall. split.
  - intros H Hx. specialize (H _ Hx). rewrite beqb_refl in H. discriminate.
  - intros H x Hx. destruct (beqb "=" x) eqn:E; [|reflexivity]. apply beqb_eq in E. subst. contradiction.
Qed.
Lemma read_format_true l : read_format l = Ret true <-> right_format l.
Proof.
  unfold read_format, right_format. split.
  - destruct (split_on (beqb "="%char) l) as [|a [|b [|c ws]]] eqn:Es.
    + destruct (negb (utf8 l)); discriminate.
    + destruct (negb (utf8 l)); discriminate.
    + destruct (bytes_eqb b _) eqn:Eb; [|destruct (negb (utf8 b)); discriminate]. intros _.
      apply bytes_eqb_eq in Eb. subst b. apply split_on_inv in Es as [Fa (c & l' & Hc & -> & Es)].
      apply beqb_eq in Hc. subst c. apply split_on_inv in Es as [_ ->]. exists a. split; [apply eq_not; exact Fa|reflexivity].
    + destruct (negb (utf8 l)); discriminate.
  - intros (k & Hk & ->). apply eq_not in Hk.
    change (lit "=32-bit_rle_rgbe") with ("="%char :: lit "32-bit_rle_rgbe").
    rewrite split_on_sep by (try exact Hk; reflexivity). rewrite split_on_none by (repeat constructor).
    rewrite bytes_eqb_refl. reflexivity.
Qed.
Lemma read_format_stuck l : read_format l <> Stuck.
Proof.
  unfold read_format. destruct (split_on _ l) as [|a [|b [|c ws]]]; try destruct (bytes_eqb _ _); try destruct (negb (utf8 _)); discriminate.
Qed.

(** ** the size line *)
Lemma read_size_stuck l : read_size l <> Stuck.
Proof.
  unfold read_size. destruct (negb (utf8 l)); [discriminate|]. destruct (split_on _ l) as [|? [|a [|b [|c [|? ?]]]]]; try discriminate.
  destruct (negb (bytes_eqb _ _)); [discriminate|]. destruct (negb (utf8 a)); [discriminate|]. destruct (parse_usize a); [|discriminate].
  destruct (negb (utf8 c)); [discriminate|]. destruct (parse_usize c); discriminate.
Qed.
Lemma read_size_some l h w : one_line l -> begins l (lit "-Y") -> (read_size l = Ret (Some (h, w)) <-> size_line l h w).
Proof.
  intros Hl Hb. unfold read_size. split.
  - destruct (utf8 l) eqn:U; cbn [negb]; [|discriminate].
    destruct (split_on is_ws l) as [|t0 [|t1 [|t2 [|t3 [|? ?]]]]] eqn:Es; try discriminate.
    destruct (bytes_eqb t2 (lit "+X")) eqn:E2; cbn [negb]; [|discriminate]. apply bytes_eqb_eq in E2. subst t2.
    destruct (utf8 t1) eqn:U1; cbn [negb]; [|discriminate]. destruct (parse_usize t1) as [h'|] eqn:P1; [|discriminate].
    destruct (utf8 t3) eqn:U3; cbn [negb]; [|discriminate]. destruct (parse_usize t3) as [w'|] eqn:P3; [|discriminate].
    intros E. injection E as -> ->. split; [exact Hl|split; [exact U|]].
    destruct (split_on_inv _ _ _ _ Es) as [W0 (b1 & l1 & B1 & -> & Es1)].
    apply split_on_inv in Es1 as [W1 (b2 & l2 & B2 & -> & Es2)].
    apply split_on_inv in Es2 as [_ (b3 & l3 & B3 & -> & Es3)].
    apply split_on_inv in Es3 as [W3 ->].
    destruct Hb as [r Hr]. 
    assert (K : exists k, t0 = lit "-Y" ++ k).
    { destruct t0 as [|c0 [|c1 k]].
      - cbn in Hr. injection Hr as -> _. discriminate.
      - cbn in Hr. injection Hr as _ -> _. discriminate.
      - cbn in Hr. injection Hr as -> -> _. exists k. reflexivity. }
    destruct K as [k ->]. exists k, b1, t1, b2, b3, t3. rewrite <- !app_assoc. cbn [app].
    split; [reflexivity|]. split; [unfold word; apply Forall_app in W0; apply W0|]. repeat split; assumption.
  - intros (_ & U & k & b1 & hs & b2 & b3 & ws & -> & Wk & Wh & Ww & B1 & B2 & B3 & Uh & Uw & Ph & Pw).
    rewrite U. cbn [negb].
    assert (Es : split_on is_ws (lit "-Y" ++ k ++ [b1] ++ hs ++ [b2] ++ lit "+X" ++ [b3] ++ ws) = [lit "-Y" ++ k; hs; lit "+X"; ws]).
    { replace (lit "-Y" ++ k ++ [b1] ++ hs ++ [b2] ++ lit "+X" ++ [b3] ++ ws)
        with ((lit "-Y" ++ k) ++ b1 :: (hs ++ b2 :: (lit "+X" ++ b3 :: ws))) by (rewrite <- app_assoc; reflexivity).
      rewrite split_on_sep; [|apply Forall_app; split; [repeat constructor|exact Wk]|exact B1].
      rewrite split_on_sep; [|exact Wh|exact B2]. rewrite split_on_sep; [|repeat constructor|exact B3]. rewrite split_on_none by exact Ww. reflexivity. }
    rewrite Es. rewrite bytes_eqb_refl, Uh, Ph, Uw, Pw. reflexivity.
Qed.

(** ** the loop *)
Lemma cut_line_length l w r : cut_line l = Some (w, r) -> length r < length l.
Proof. intros H. apply cut_line_some in H as [-> _]. rewrite app_length. cbn. lia. Qed.
Lemma read_header_terminates fuel l : length l < fuel -> read_header fuel l <> Stuck.
Proof.
  revert l. induction fuel as [|k IH]; intros l H; [lia|]. cbn [read_header].
  destruct (cut_line l) as [[w r]|] eqn:E; [|discriminate]. pose proof (cut_line_length _ _ _ E).
  destruct (starts_with w (lit "-Y")).
  - pose proof (read_size_stuck w). destruct (read_size w); cbn; try discriminate. contradiction.
  - destruct (starts_with w (lit "FORMAT")); [|apply IH; lia].
    pose proof (read_format_stuck w). destruct (read_format w) as [[]| |]; cbn; try discriminate; [|contradiction]. apply IH. lia.
Qed.

Lemma harmless_step fuel w r : harmless w -> read_header (S fuel) (w ++ NL :: r) = read_header fuel r.
Proof.
  intros (H1 & H2 & H3). cbn [read_header]. rewrite cut_line_app by (apply one_line_forall; exact H1).
  apply not_begins in H2. rewrite H2. destruct (starts_with w (lit "FORMAT")) eqn:E; [|reflexivity].
  apply begins_spec in E. apply H3 in E. apply read_format_true in E. rewrite E. reflexivity.
Qed.
Lemma harmless_steps ls fuel r : Forall harmless ls -> read_header (length ls + fuel) (text_of ls ++ r) = read_header fuel r.
Proof.
  induction 1 as [|w ls H _ IH]; [reflexivity|]. cbn [length Nat.add]. unfold text_of. cbn [map concat].
  rewrite <- !app_assoc. cbn [app]. rewrite harmless_step by exact H. exact IH.
Qed.
Lemma text_length ls : length ls <= length (text_of ls).
Proof.
  induction ls as [|w ls IH]; [cbn; lia|]. unfold text_of in *. cbn [map concat length]. rewrite !app_length. cbn [length]. lia.
Qed.

Lemma read_header_some fuel l h w body : length l < fuel ->
  (read_header fuel l = Ret (Some ((h, w), body)) <->
   exists ls size, l = text_of ls ++ size ++ NL :: body /\ Forall harmless ls /\ size_line size h w).
Proof.
  intros Hf. split.
  - revert l Hf. induction fuel as [|k IH]; intros l Hf; [lia|]. cbn [read_header].
    destruct (cut_line l) as [[s r]|] eqn:E; [|discriminate]. pose proof (cut_line_length _ _ _ E) as HL.
    apply cut_line_some in E as [-> HN]. apply one_line_forall in HN.
    destruct (starts_with s (lit "-Y")) eqn:EY.
    + destruct (read_size s) as [[[h' w']|]| |] eqn:ES; cbn; try discriminate. intros Q. injection Q as -> -> ->.
      apply read_size_some in ES; [|exact HN|apply begins_spec; exact EY]. exists [], s. split; [reflexivity|]. split; [constructor|exact ES].
    + apply not_begins in EY.
      destruct (starts_with s (lit "FORMAT")) eqn:EF.
      * destruct (read_format s) as [[]| |] eqn:EQ; cbn; try discriminate. intros Q. apply IH in Q; [|lia].
        destruct Q as (ls & size & -> & HL' & HS). exists (s :: ls), size.
        split; [unfold text_of; cbn [map concat]; rewrite <- !app_assoc; reflexivity|]. split; [|exact HS].
        constructor; [|exact HL']. split; [exact HN|split; [exact EY|]]. intros _. apply read_format_true. exact EQ.
      * intros Q. apply IH in Q; [|lia]. destruct Q as (ls & size & -> & HL' & HS). exists (s :: ls), size.
        split; [unfold text_of; cbn [map concat]; rewrite <- !app_assoc; reflexivity|]. split; [|exact HS].
        constructor; [|exact HL']. split; [exact HN|split; [exact EY|]]. intros B. apply not_begins in EF. contradiction.
  - intros (ls & size & -> & HL & HS).
    assert (length ls < fuel). { rewrite app_length in Hf. pose proof (text_length ls). lia. }
    replace fuel with (length ls + S (fuel - length ls - 1)) by lia. rewrite harmless_steps by exact HL.
    cbn [read_header]. pose proof HS as (H1 & _). rewrite cut_line_app by (apply one_line_forall; exact H1).
    assert (B : begins size (lit "-Y")).
    { destruct HS as (_ & _ & k & b1 & hs & b2 & b3 & ws & -> & _). eexists. reflexivity. }
    pose proof B as B'. apply begins_spec in B'. rewrite B'. apply (read_size_some size h w H1 B) in HS. rewrite HS. reflexivity.
Qed.

Section Generic.
  Context {N : Num} {T : Trig N}.
  Lemma from_file_some content (m : ImageBuffer) : from_file content = Ret (Some m) <->
    exists ls size body, content = text_of ls ++ size ++ NL :: body /\ Forall harmless ls /\
      size_line size (img_height m) (img_width m) /\ img_pixels m = read_body body.
  Proof.
    unfold from_file. split.
    - destruct (read_header _ content) as [[[[h w] body]|]| |] eqn:E; cbn; try discriminate. intros Q. injection Q as <-. cbn [img_height img_width img_pixels].
      apply read_header_some in E; [|lia]. destruct E as (ls & size & -> & HL & HS). exists ls, size, body. auto.
    - intros (ls & size & body & E & HL & HS & HP).
      assert (Q : read_header (S (length content)) content = Ret (Some ((img_height m, img_width m), body))).
      { apply read_header_some; [lia|]. exists ls, size. auto. }
      rewrite Q. cbn. rewrite <- HP. destruct m. reflexivity.
  Qed.

  Lemma encode_four (r g b : F) : exists w x y z, colour_to_rgbe r g b = [w; x; y; z].
  Proof.
    unfold colour_to_rgbe. cbv zeta. destruct (fltb _ _); [repeat eexists|]. destruct (rusty_frexp _). repeat eexists.
  Qed.
  Definition body_of (ps : list Spectrum) : bytes := concat (map (fun p => colour_to_rgbe (sr p) (sg p) (sb p)) ps).
  Lemma read_body_encoded ps extra : length extra < 4 -> read_body (body_of ps ++ extra) = map through_rgbe ps.
  Proof.
    intros H. induction ps as [|p ps IH].
    - cbn. destruct extra as [|? [|? [|? [|? ?]]]]; try reflexivity. cbn in H. lia.
    - unfold body_of in *. cbn [map concat]. unfold through_rgbe at 1. destruct (encode_four (sr p) (sg p) (sb p)) as (w & x & y & z & ->).
      rewrite <- app_assoc. cbn [app read_body]. rewrite IH. reflexivity.
  Qed.
  Lemma body_length ps : length (body_of ps) = 4 * length ps.
  Proof.
    induction ps as [|p ps IH]; [reflexivity|]. unfold body_of in *. cbn [map concat]. rewrite app_length, IH.
    destruct (encode_four (sr p) (sg p) (sb p)) as (w & x & y & z & ->). cbn [length]. lia.
  Qed.
  Lemma body_firstn ps n : exists extra, length extra < 4 /\ firstn n (body_of ps) = body_of (firstn (n / 4) ps) ++ extra.
  Proof.
    revert n. induction ps as [|p ps IH]; intros n.
    - exists []. rewrite !firstn_nil. split; [cbn; lia|reflexivity].
    - destruct (Nat.lt_ge_cases n 4) as [L|L].
      + exists (firstn n (body_of (p :: ps))). rewrite (Nat.div_small n 4) by lia. cbn [firstn]. split; [|reflexivity].
        pose proof (firstn_le_length n (body_of (p :: ps))). rewrite firstn_length. lia.
      + replace n with (1 * 4 + (n - 4)) by lia. destruct (IH (n - 4)) as (extra & HE & E). exists extra. split; [exact HE|].
        rewrite Nat.div_add_l by lia. unfold body_of in *. cbn [map concat Nat.add firstn]. 
        destruct (encode_four (sr p) (sg p) (sb p)) as (w & x & y & z & ->). cbn [Nat.mul Nat.add app firstn]. rewrite E. cbn [app]. reflexivity.
  Qed.

  Definition hdr_lines : list bytes := [lit "#?RGBE"; lit "FORMAT=32-bit_rle_rgbe"; []].
  Definition size_of (h w : nat) : bytes := lit "-Y " ++ print_usize h ++ lit " +X " ++ print_usize w.
  Lemma save_form m : save_hdre m = text_of hdr_lines ++ size_of (img_height m) (img_width m) ++ NL :: body_of (img_pixels m).
  Proof.
    unfold save_hdre, size_of, body_of. rewrite <- !app_assoc. reflexivity.
  Qed.
  Lemma hdr_harmless : Forall harmless hdr_lines.
  Proof.
    repeat constructor; try (apply one_line_forall; repeat constructor; discriminate); try (apply not_begins; reflexivity);
      try (intros B; apply begins_spec in B; discriminate).
    intros _. exists (lit "FORMAT"). split; [|reflexivity]. apply eq_not. repeat constructor.
  Qed.
  Lemma size_of_ok h w : (Z.of_nat h < 2 ^ 64)%Z -> (Z.of_nat w < 2 ^ 64)%Z -> size_line (size_of h w) h w.
  Proof.
    intros Hh Hw. unfold size_of. split; [|split].
    - apply one_line_forall. rewrite !Forall_app. repeat split; try (repeat constructor; discriminate); apply print_not_nl.
    - apply utf8_plain. unfold plain. rewrite !Forall_app. repeat split; try apply plain_print; repeat constructor.
    - exists [], " "%char, (print_usize h), " "%char, " "%char, (print_usize w).
      split; [reflexivity|]. split; [constructor|]. split; [apply print_not_ws|]. split; [apply print_not_ws|].
      repeat split; try reflexivity; try (apply utf8_plain; apply plain_print); apply print_parse_usize; assumption.
  Qed.
End Generic.
