(** * Proofs about the reader of Radiance descriptions (any arithmetic) *)
From Verif Require Import Text TextProofs SpecImage HeaderProofs Scene SpecScene Radiance SpecRadiance.
Open Scope nat_scope.

(** ** words *)
Lemma split_ws_blanks gap rest : Forall blank gap -> split_ws (gap ++ rest) = split_ws rest.
Proof.
  unfold blank. induction 1 as [|c gap H _ IH]; [reflexivity|]. rewrite <- IH. unfold split_ws. cbn [app split_on]. rewrite H. reflexivity.
Qed.
Lemma split_ws_last w : w <> [] -> word w -> split_ws w = [w].
Proof. intros NE W. unfold split_ws. rewrite split_on_none by exact W. destruct w; [contradiction|reflexivity]. Qed.
Lemma split_ws_next w rest : w <> [] -> word w -> (rest = [] \/ exists c r, rest = c :: r /\ blank c) -> split_ws (w ++ rest) = w :: split_ws rest.
Proof.
  intros NE W [->|(c & r & -> & B)]; [rewrite app_nil_r; apply split_ws_last; assumption|].
  unfold split_ws. rewrite split_on_sep by assumption. cbn [filter].
  assert (E : nonempty w = true) by (destruct w; [contradiction|reflexivity]). rewrite E.
  change (filter nonempty (split_on is_ws (c :: r))) with (split_ws ([c] ++ r)). rewrite split_ws_blanks by (constructor; [exact B|constructor]). reflexivity.
Qed.
Fixpoint span (p : ascii -> bool) (l : bytes) : bytes * bytes :=
  match l with
  | [] => ([], [])
  | c :: l' => if p c then let '(a, b) := span p l' in (c :: a, b) else ([], l)
  end.
Lemma span_spec p l a b : span p l = (a, b) -> l = a ++ b /\ Forall (fun c => p c = true) a /\ (b = [] \/ exists c r, b = c :: r /\ p c = false).
Proof.
  revert a b. induction l as [|c l IH]; intros a b; cbn [span].
  - intros E. injection E as <- <-. repeat split; auto.
  - destruct (p c) eqn:Hc.
    + destruct (span p l) as [a' b'] eqn:E. intros Q. injection Q as <- <-. destruct (IH a' b' eq_refl) as (-> & F & D). repeat split; auto.
    + intros Q. injection Q as <- <-. repeat split; auto. right. eauto.
Qed.
(** a text is white, or starts with some blanks and a word *)
Lemma text_cases l : (Forall blank l /\ split_ws l = []) \/
  exists gap w rest, l = gap ++ w ++ rest /\ Forall blank gap /\ w <> [] /\ word w /\ (rest = [] \/ exists c r, rest = c :: r /\ blank c) /\
    split_ws l = w :: split_ws rest.
Proof.
  destruct (span is_ws l) as [gap l1] eqn:E1. apply span_spec in E1 as (-> & Bg & D1).
  destruct D1 as [->|(c & r & -> & Hc)].
  - left. rewrite app_nil_r. split; [exact Bg|]. rewrite <- (app_nil_r gap). rewrite split_ws_blanks by exact Bg. reflexivity.
  - right. destruct (span (fun c => negb (is_ws c)) (c :: r)) as [w rest] eqn:E2.
    pose proof (span_spec _ _ _ _ E2) as (EQ & W & D2).
    assert (NE : w <> []).
    { intros ->. cbn [span] in E2. rewrite Hc in E2. cbn [negb] in E2. destruct (span _ r). discriminate. }
    assert (Ww : word w) by (eapply Forall_impl; [|exact W]; intros x Hx; cbn beta in Hx |- *; destruct (is_ws x); [discriminate|reflexivity]).
    assert (D3 : rest = [] \/ exists c r, rest = c :: r /\ blank c).
    { destruct D2 as [->|(x & y & -> & Hx)]; [left; reflexivity|]. right. exists x, y. split; [reflexivity|]. unfold blank. destruct (is_ws x); [reflexivity|discriminate]. }
    exists gap, w, rest. rewrite EQ. repeat split; auto. rewrite split_ws_blanks by exact Bg. apply split_ws_next; assumption.
Qed.
Lemma runs_split l ws : runs l ws <-> split_ws l = ws.
Proof.
  split.
  - induction 1 as [gap B|gap w rest ws B NE W D _ IH].
    + rewrite <- (app_nil_r gap), split_ws_blanks by exact B. reflexivity.
    + rewrite split_ws_blanks by exact B. rewrite split_ws_next by assumption. rewrite IH. reflexivity.
  - revert ws. induction l as [l IH] using (well_founded_induction (well_founded_ltof _ (@length ascii))). intros ws E.
    destruct (text_cases l) as [[B E']|(gap & w & rest & -> & B & NE & W & D & E')].
    + rewrite E' in E. subst ws. constructor. exact B.
    + rewrite E' in E. subst ws. constructor; try assumption. apply IH; [|reflexivity]. unfold ltof. rewrite !app_length.
      destruct w; [contradiction|]. cbn. lia.
Qed.

(** ** the reader's position *)
(** [rest] is what has not been read yet *)
Definition reads (src : bytes) (rd : Reader) (rest : bytes) (mods : list bytes) : Prop :=
  rd_index rd <= length src /\ skipn (rd_index rd) src = rest /\ rd_modifiers rd = mods /\
  (rd_done rd = true -> rest = []) /\ (rest = [] -> rd_done rd = true \/ src = []) /\ rd_line rd = newlines (firstn (rd_index rd) src).
Lemma reads_start src : reads src rd_default src [].
Proof. unfold reads, rd_default. cbn. repeat split; auto; try lia; try discriminate. Qed.

Lemma skipn_cons_nth {A} (l : list A) i c r : skipn i l = c :: r -> nth_error l i = Some c /\ skipn (S i) l = r /\ firstn (S i) l = firstn i l ++ [c] /\ i < length l.
Proof.
  revert i. induction l as [|x l IH]; intros i H; [rewrite skipn_nil in H; discriminate|]. destruct i as [|i].
  - cbn in H. injection H as -> ->. repeat split; auto. cbn. lia.
  - cbn [skipn] in H. destruct (IH i H) as (A1 & A2 & A3 & A4). cbn [nth_error length]. repeat split; auto; try lia. cbn. rewrite <- A3. reflexivity.
Qed.
Lemma newlines_snoc l c : newlines (l ++ [c]) = if beqb c NL then S (newlines l) else newlines l.
Proof.
  unfold newlines. rewrite count_occ_app. cbn [count_occ]. destruct (ascii_dec c NL) as [->|H].
  - rewrite beqb_refl. lia.
  - destruct (beqb c NL) eqn:E; [apply beqb_eq in E; contradiction|]. lia.
Qed.

Lemma consume_char_step src rd c rest mods : reads src rd (c :: rest) mods -> exists rd', consume_char src rd = Ret (true, rd') /\ reads src rd' rest mods.
Proof.
  intros (I & S & M & D1 & D2 & L). destruct (skipn_cons_nth _ _ _ _ S) as (N1 & N2 & N3 & N4).
  assert (NE : src <> []) by (intros ->; cbn in N4; lia).
  unfold consume_char. assert (CE : check_empty src rd = rd) by (destruct src; [contradiction|reflexivity]). rewrite CE. cbv zeta.
  destruct (rd_done rd) eqn:Ed; [specialize (D1 eq_refl); discriminate|]. rewrite N1. eexists. split; [reflexivity|].
  unfold reads. cbn [rd_index rd_done rd_modifiers rd_line]. split; [lia|]. split; [exact N2|]. split; [exact M|].
  assert (LEN : length rest = length src - Datatypes.S (rd_index rd)) by (rewrite <- N2, skipn_length; reflexivity).
  split; [|split].
  - destruct (Nat.eqb_spec (Datatypes.S (rd_index rd)) (length src)) as [Q|Q]; [|discriminate]. intros _. destruct rest; [reflexivity|cbn in LEN; lia].
  - intros ->. cbn in LEN. left. destruct (Nat.eqb_spec (Datatypes.S (rd_index rd)) (length src)) as [Q|Q]; [reflexivity|lia].
  - rewrite N3, newlines_snoc, L. reflexivity.
Qed.
Lemma check_empty_reads src rd mods : reads src rd [] mods -> rd_done (check_empty src rd) = true /\ reads src (check_empty src rd) [] mods /\ rd_index (check_empty src rd) = rd_index rd.
Proof.
  intros (I & S & M & D1 & D2 & L). destruct (D2 eq_refl) as [D|D].
  - destruct src; cbn [check_empty]; (split; [try reflexivity; exact D|]); (split; [|reflexivity]); unfold reads; cbn; auto 10.
  - subst src. cbn [check_empty]. split; [reflexivity|]. split; [|reflexivity]. unfold reads. cbn. auto 10.
Qed.
Lemma consume_end consume src rd mods : consume = consume_whitespace \/ consume = consume_non_white -> reads src rd [] mods ->
  exists rd', consume src rd = Ret (false, rd') /\ reads src rd' [] mods /\ rd_done rd' = true /\ rd_index rd' = rd_index rd.
Proof.
  intros H R. destruct (check_empty_reads _ _ _ R) as (D & R' & I). exists (check_empty src rd).
  destruct H as [->| ->]; unfold consume_whitespace, consume_non_white; cbv zeta; rewrite D; auto.
Qed.
Lemma consume_not_end src rd c rest mods : reads src rd (c :: rest) mods ->
  consume_whitespace src rd = (if is_ws c then consume_char src rd else Ret (false, rd)) /\
  consume_non_white src rd = (if is_ws c then Ret (false, rd) else consume_char src rd).
Proof.
  intros (I & S & M & D1 & D2 & L). destruct (skipn_cons_nth _ _ _ _ S) as (N1 & N2 & N3 & N4).
  assert (NE : src <> []) by (intros ->; cbn in N4; lia).
  assert (CE : check_empty src rd = rd) by (destruct src; [contradiction|reflexivity]).
  unfold consume_whitespace, consume_non_white. rewrite CE. cbv zeta.
  destruct (rd_done rd) eqn:Ed; [specialize (D1 eq_refl); discriminate|]. rewrite N1. auto.
Qed.
Lemma reads_index src rd rest mods : reads src rd rest mods -> rd_index rd + length rest = length src.
Proof. intros (I & S & _). rewrite <- S, skipn_length. lia. Qed.
Lemma reads_skip src rd rest mods rd' a rest' mods' : reads src rd rest mods -> rest = a ++ rest' -> reads src rd' rest' mods' ->
  firstn (rd_index rd' - rd_index rd) (skipn (rd_index rd) src) = a.
Proof.
  intros R E R'. pose proof (reads_index _ _ _ _ R). pose proof (reads_index _ _ _ _ R'). destruct R as (_ & S & _). rewrite S, E.
  rewrite E, app_length in H. replace (rd_index rd' - rd_index rd) with (length a) by lia.
  rewrite firstn_app, Nat.sub_diag, firstn_all. cbn. apply app_nil_r.
Qed.

(** skipping a run of blanks (or of non-blanks) *)
Definition wants (consume : bytes -> Reader -> outcome (bool * Reader)) (p : ascii -> bool) : Prop :=
  (consume = consume_whitespace /\ p = is_ws) \/ (consume = consume_non_white /\ p = fun c => negb (is_ws c)).
Lemma wants_step consume p src rd c rest mods : wants consume p -> reads src rd (c :: rest) mods ->
  consume src rd = if p c then consume_char src rd else Ret (false, rd).
Proof.
  intros [[-> ->]|[-> ->]] R; destruct (consume_not_end _ _ _ _ _ R) as [E1 E2]; [rewrite E1|rewrite E2]; destruct (is_ws c); reflexivity.
Qed.
Lemma consume_while_run consume p : wants consume p -> forall a fuel src rd rest mods, length a < fuel -> Forall (fun c => p c = true) a ->
  (rest = [] \/ exists c r, rest = c :: r /\ p c = false) -> reads src rd (a ++ rest) mods ->
  exists rd', consume_while fuel consume src rd = Ret rd' /\ reads src rd' rest mods /\ (rest = [] -> rd_done rd' = true).
Proof.
  intros W. induction a as [|c a IH]; intros fuel src rd rest mods Hf F D R; (destruct fuel as [|fuel]; [cbn in Hf; lia|]); cbn [consume_while app] in *.
  - destruct D as [->|(c & r & -> & Hc)].
    + destruct (consume_end consume src rd mods) as (rd' & E & R' & D' & _); [destruct W as [[-> _]|[-> _]]; auto|exact R|].
      rewrite E. cbn [obind]. exists rd'. auto.
    + rewrite (wants_step _ _ _ _ _ _ _ W R). rewrite Hc. cbn [obind]. exists rd. split; [reflexivity|]. split; [exact R|discriminate].
  - rewrite (wants_step _ _ _ _ _ _ _ W R). inversion F; subst. match goal with H : p c = true |- _ => rewrite H end.
    destruct (consume_char_step _ _ _ _ _ R) as (rd1 & -> & R1). cbn [obind]. apply (IH fuel src rd1 rest mods); auto. cbn in Hf. lia.
Qed.

(** ** one token *)
Lemma reach_token src rd rest mods : reads src rd rest mods ->
  (Forall blank rest /\ exists rd', reach_next_token src rd = Ret rd' /\ reads src rd' [] mods /\ rd_done rd' = true) \/
  exists gap w rest', rest = gap ++ w ++ rest' /\ Forall blank gap /\ w <> [] /\ word w /\ (rest' = [] \/ exists c r, rest' = c :: r /\ blank c) /\
    exists rd', reach_next_token src rd = Ret rd' /\ reads src rd' (w ++ rest') mods /\ rd_done rd' = false.
Proof.
  intros R. assert (Hlen : length rest <= length src) by (pose proof (reads_index _ _ _ _ R); lia).
  destruct (text_cases rest) as [[B _]|(gap & w & rest' & -> & B & NE & W & D & _)].
  - left. split; [exact B|].
    destruct (consume_while_run consume_whitespace is_ws ltac:(left; auto) rest (S (length src)) src rd [] mods) as (rd' & E & R' & D'); auto; [lia|rewrite app_nil_r; exact R|].
    exists rd'. auto.
  - right. exists gap, w, rest'. repeat (split; [assumption || reflexivity|]).
    destruct w as [|c w]; [contradiction|].
    destruct (consume_while_run consume_whitespace is_ws ltac:(left; auto) gap (S (length src)) src rd ((c :: w) ++ rest') mods) as (rd' & E & R' & _); auto.
    + rewrite app_length in Hlen. lia.
    + right. exists c, (w ++ rest'). split; [reflexivity|]. inversion W; assumption.
    + exists rd'. split; [exact E|]. split; [exact R'|]. destruct R' as (_ & _ & _ & D1 & _). destruct (rd_done rd'); [|reflexivity]. specialize (D1 eq_refl). discriminate.
Qed.
Lemma token_end src rd rest mods : reads src rd rest mods -> split_ws rest = [] ->
  exists rd', consume_token src rd = Ret ([], rd') /\ reads src rd' [] mods /\ rd_done rd' = true.
Proof.
  intros R E. destruct (reach_token _ _ _ _ R) as [[B (rd1 & E1 & R1 & D1)]|(gap & w & rest' & -> & B & NE & W & D & _)].
  - unfold consume_token. rewrite E1. cbn [obind].
    destruct (consume_while_run consume_non_white (fun c => negb (is_ws c)) ltac:(right; auto) [] (S (length src)) src rd1 [] mods) as (rd2 & E2 & R2 & D2); auto; [cbn; lia|].
    rewrite E2. cbn [obind]. pose proof (reads_index _ _ _ _ R1). pose proof (reads_index _ _ _ _ R2). cbn in H, H0.
    destruct (Nat.eqb_spec (rd_index rd1) (rd_index rd2)); [|lia]. exists rd2. auto.
  - rewrite split_ws_blanks, split_ws_next in E by assumption. discriminate.
Qed.
Lemma token_next src rd rest mods t ts : reads src rd rest mods -> split_ws rest = t :: ts ->
  exists rd' rest', reads src rd' rest' mods /\ split_ws rest' = ts /\ length rest' < length rest /\ t <> [] /\ (rest' = [] -> rd_done rd' = true) /\
    consume_token src rd = if utf8 t then Ret (t, rd') else Crash.
Proof.
  intros R E. destruct (reach_token _ _ _ _ R) as [[B _]|(gap & w & rest' & -> & B & NE & W & D & rd1 & E1 & R1 & D1)].
  - rewrite <- (app_nil_r rest), split_ws_blanks in E by exact B. discriminate.
  - rewrite split_ws_blanks, split_ws_next in E by assumption. injection E as -> <-.
    assert (D' : rest' = [] \/ exists c r, rest' = c :: r /\ negb (is_ws c) = false).
    { destruct D as [->|(c & r & -> & Bc)]; [left; reflexivity|right; exists c, r; split; [reflexivity|]]. unfold blank in Bc. rewrite Bc. reflexivity. }
    destruct (consume_while_run consume_non_white (fun c => negb (is_ws c)) ltac:(right; auto) t (S (length src)) src rd1 rest' mods) as (rd2 & E2 & R2 & D2); auto.
    { pose proof (reads_index _ _ _ _ R1) as H. rewrite app_length in H. lia. }
    { eapply Forall_impl; [|exact W]. intros x Hx. cbn. rewrite Hx. reflexivity. }
    exists rd2, rest'. split; [exact R2|]. split; [reflexivity|]. split; [rewrite !app_length; destruct t; [contradiction|]; cbn; lia|]. split; [exact NE|]. split; [exact D2|].
    unfold consume_token. rewrite E1. cbn [obind]. rewrite E2. cbn [obind].
    pose proof (reads_index _ _ _ _ R1) as I1. pose proof (reads_index _ _ _ _ R2) as I2. rewrite app_length in I1.
    destruct (Nat.eqb_spec (rd_index rd1) (rd_index rd2)); [destruct t; [contradiction|]; cbn in I1; lia|].
    cbv zeta. rewrite (reads_skip src rd1 (t ++ rest') mods rd2 t rest' mods R1 eq_refl R2). reflexivity.
Qed.
Lemma token_not_stuck src rd rest mods : reads src rd rest mods -> consume_token src rd <> Stuck.
Proof.
  intros R. destruct (split_ws rest) as [|t ts] eqn:E.
  - destruct (token_end _ _ _ _ R E) as (rd' & -> & _). discriminate.
  - destruct (token_next _ _ _ _ _ _ R E) as (rd' & rest' & _ & _ & _ & _ & _ & ->). destruct (utf8 t); discriminate.
Qed.
(** what a successful call returned *)
Lemma token_inv src rd rest mods t rd' : reads src rd rest mods -> consume_token src rd = Ret (t, rd') ->
  (t = [] /\ split_ws rest = [] /\ reads src rd' [] mods /\ rd_done rd' = true) \/
  (t <> [] /\ utf8 t = true /\ exists rest', split_ws rest = t :: split_ws rest' /\ reads src rd' rest' mods /\ length rest' < length rest /\ (rest' = [] -> rd_done rd' = true)).
Proof.
  intros R H. destruct (split_ws rest) as [|u us] eqn:E.
  - left. destruct (token_end _ _ _ _ R E) as (rd1 & E1 & R1 & D1). rewrite E1 in H. injection H as <- <-. auto.
  - right. destruct (token_next _ _ _ _ _ _ R E) as (rd1 & rest' & R1 & S1 & L1 & NE & D1 & E1). rewrite E1 in H.
    destruct (utf8 u) eqn:U; [|discriminate]. injection H as <- <-. split; [exact NE|]. split; [exact U|]. exists rest'. rewrite S1. auto.
Qed.

(** ** taking many tokens *)
Lemma take_tokens_spec n : forall src rd rest mods, reads src rd rest mods -> Forall (fun t => utf8 t = true) (split_ws rest) ->
  exists rd' rest', take_tokens n src rd = Ret (firstn n (split_ws rest) ++ repeat [] (n - length (split_ws rest)), rd') /\ reads src rd' rest' mods.
Proof.
  induction n as [|n IH]; intros src rd rest mods R U; cbn [take_tokens].
  - exists rd, rest. split; [reflexivity|exact R].
  - destruct (split_ws rest) as [|t ts] eqn:E.
    + destruct (token_end _ _ _ _ R E) as (rd1 & E1 & R1 & _). rewrite E1. cbn [obind].
      destruct (IH src rd1 [] mods R1) as (rd2 & rest2 & E2 & R2); [constructor|]. rewrite E2. cbn [obind]. exists rd2, rest2. split; [|exact R2].
      cbn. rewrite firstn_nil, Nat.sub_0_r. reflexivity.
    + destruct (token_next _ _ _ _ _ _ R E) as (rd1 & rest1 & R1 & S1 & _ & _ & _ & E1). inversion U as [|? ? Ut Us]; subst. rewrite E1, Ut. cbn [obind].
      destruct (IH src rd1 rest1 mods R1 Us) as (rd2 & rest2 & E2 & R2). rewrite E2. cbn [obind].
      exists rd2, rest2. split; [reflexivity|exact R2].
Qed.

(** ** names *)
Lemma modifier_index_spec names name : forall i k, modifier_index_from i names name = Ret k <->
  (i <= k /\ nth_error names (k - i) = Some name /\ forall j, j < k - i -> nth_error names j <> Some name).
Proof.
  induction names as [|n names IH]; intros i k; cbn [modifier_index_from].
  - split; [discriminate|]. intros (_ & H & _). destruct (k - i); discriminate.
  - destruct (bytes_eqb name n) eqn:E.
    + apply bytes_eqb_eq in E. subst n. split.
      * intros H. injection H as <-. rewrite Nat.sub_diag. split; [lia|]. split; [reflexivity|]. intros j Hj. lia.
      * intros (L & _ & H). destruct (Nat.eq_dec k i) as [->|Q]; [reflexivity|]. exfalso. apply (H 0); [lia|reflexivity].
    + rewrite IH. split.
      * intros (L & H & F). split; [lia|]. replace (k - i) with (S (k - S i)) by lia. split; [exact H|]. intros [|j] Hj; cbn.
        -- intros Q. injection Q as ->. rewrite bytes_eqb_refl in E. discriminate.
        -- apply F. lia.
      * intros (L & H & F). assert (Hk : k - i <> 0).
        { intros Z. rewrite Z in H. cbn in H. injection H as ->. rewrite bytes_eqb_refl in E. discriminate. }
        split; [lia|]. replace (k - i) with (S (k - S i)) in * by lia. split; [exact H|]. intros j Hj. apply (F (S j)). lia.
Qed.
Lemma get_modifier_spec rd name k : get_modifier_index rd name = Ret k <-> first_definition (rd_modifiers rd) name k.
Proof.
  unfold get_modifier_index, first_definition. rewrite modifier_index_spec, Nat.sub_0_r. split; [intros (_ & H); exact H|intros H; split; [lia|exact H]].
Qed.
Lemma get_modifier_stuck rd name : get_modifier_index rd name <> Stuck.
Proof.
  unfold get_modifier_index. generalize 0. induction (rd_modifiers rd) as [|n ns IH]; intros i; cbn [modifier_index_from]; [discriminate|].
  destruct (bytes_eqb name n); [discriminate|apply IH].
Qed.
