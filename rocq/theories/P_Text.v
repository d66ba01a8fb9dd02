(** * Text conventions behind C31, C38 and C39 (numbers, line ends, UTF-8) and new images (C32): statements that do not mention the
    model's own text functions on the right-hand side *)
From Coq Require Import ZifyBool ZifyNat ZifyN.
From Verif Require Import Num Text TextProofs Colour Image SpecImage ColourMatrix SpecMatrix MatrixProofs.
Ltac Zify.zify_post_hook ::= Z.div_mod_to_equations.
Open Scope nat_scope.

(** ** numbers in headers: an optional plus sign and decimal digits, of a value below 2^64 *)
Definition digit_of (c : ascii) (d : N) : Prop := (d < 10)%N /\ code c = (48 + d)%N.
Inductive decimal : bytes -> N -> Prop :=                         (* digits, most significant first *)
| dec_one c d : digit_of c d -> decimal [c] d
| dec_more w n c d : decimal w n -> digit_of c d -> decimal (w ++ [c]) (10 * n + d).
Lemma digit_val_spec c d : digit_val c = Some d <-> digit_of c d.
Proof.
  unfold digit_val, digit_of. destruct (N.leb_spec 48 (code c)), (N.leb_spec (code c) 57); cbn [andb]; split; intros Q; try discriminate; try lia.
  - injection Q as <-. lia.
  - f_equal. lia.
Qed.
Lemma decimal_cons w n : decimal w n -> exists c d r, w = c :: r /\ digit_of c d.
Proof. induction 1 as [c d D|w n c d W (c' & d' & r & -> & D')  D]; [exists c, d, []; auto|]. exists c', d', (r ++ [c]). auto. Qed.
Lemma parse_digits_spec w n : w <> [] -> parse_digits 0 w = Some n <-> decimal w n.
Proof.
  revert n. induction w as [|c w IH] using rev_ind; intros n NE; [contradiction|]. rewrite parse_digits_app. cbn [parse_digits]. split.
  - destruct (parse_digits 0 w) as [m|] eqn:P; [|discriminate]. destruct (digit_val c) as [d|] eqn:D; [|discriminate]. intros Q. injection Q as <-. apply digit_val_spec in D.
    destruct w as [|x w]; [cbn in P; injection P as <-; constructor; exact D|].
    replace (m * 10 + d)%N with (10 * m + d)%N by lia. apply dec_more; [|exact D]. apply IH; [discriminate|reflexivity].
  - intros Q. inversion Q as [c' d D E1|w' m c' d W D E1].
    + destruct w as [|? [|? ?]]; try discriminate E1. injection E1 as ->. cbn [parse_digits]. apply digit_val_spec in D. rewrite D. f_equal.
    + apply app_inj_tail in E1 as [-> ->]. assert (w <> []) by (intros ->; destruct (decimal_cons _ _ W) as (? & ? & ? & Q' & _); discriminate Q').
      apply IH in W; [|assumption]. rewrite W. apply digit_val_spec in D. rewrite D. f_equal. lia.
Qed.
Definition number_text (l : bytes) (n : nat) : Prop :=
  exists w, (l = w \/ l = "+"%char :: w) /\ decimal w (N.of_nat n) /\ (N.of_nat n < 2 ^ 64)%N.
Theorem C31_numbers : forall l n, parse_usize l = Some n <-> number_text l n.
Proof.
  intros l n. unfold parse_usize, parse_usize_N, number_text.
  assert (U : forall w, parse_unsigned w = Some (N.of_nat n) <-> decimal w (N.of_nat n)).
  { intros [|c w]; cbn [parse_unsigned]; [|apply parse_digits_spec; discriminate]. split; [discriminate|]. intros H. apply decimal_cons in H as (? & ? & ? & Q & _). discriminate. }
  split.
  - destruct l as [|c l]; [discriminate|].
    destruct (beqb c "+"%char) eqn:C.
    + apply beqb_eq in C. subst c. destruct (parse_unsigned l) as [m|] eqn:P; [|discriminate]. destruct (N.ltb_spec m (2 ^ 64)); [|discriminate].
      cbn [option_map]. intros Q. injection Q as Q. assert (m = N.of_nat n) by lia. subst m. exists l. split; [right; reflexivity|]. split; [apply U; exact P|lia].
    + destruct (parse_unsigned (c :: l)) as [m|] eqn:P; [|discriminate]. destruct (N.ltb_spec m (2 ^ 64)); [|discriminate].
      cbn [option_map]. intros Q. injection Q as Q. assert (m = N.of_nat n) by lia. subst m. exists (c :: l). split; [left; reflexivity|]. split; [apply U; exact P|lia].
  - intros (w & [->| ->] & D & B).
    + destruct (decimal_cons _ _ D) as (c & d & r & -> & [D1 D2]). assert (C : beqb c "+"%char = false).
      { destruct (beqb c "+"%char) eqn:E; [|reflexivity]. apply beqb_eq in E. subst c. change (code "+"%char) with 43%N in D2. lia. }
      rewrite C. apply U in D. rewrite D. destruct (N.ltb_spec (N.of_nat n) (2 ^ 64)); [|lia]. cbn. f_equal. lia.
    + change (beqb "+"%char "+"%char) with true. cbv iota. apply U in D. rewrite D. destruct (N.ltb_spec (N.of_nat n) (2 ^ 64)); [|lia]. cbn. f_equal. lia.
Qed.
Print Assumptions C31_numbers.
Example C31_numbers_case : number_text (lit "+480") 480 /\ ~ number_text (lit "18446744073709551616") (N.to_nat (2 ^ 64)) /\ (forall n, ~ number_text (lit "4 80") n).
Proof.
  split; [apply C31_numbers; vm_compute; reflexivity|]. split.
  - intros (w & _ & _ & B). rewrite Nnat.N2Nat.id in B. lia.
  - intros n H. apply C31_numbers in H. vm_compute in H. discriminate.
Qed.

(** ** UTF-8: exactly the encodings of sequences of Unicode scalar values *)
Definition scalar (n : N) : Prop := (n < 55296 \/ 57344 <= n < 1114112)%N.
Definition encode (n : N) : list N :=
  (if n <? 128 then [n]
   else if n <? 2048 then [192 + n / 64; 128 + n mod 64]
   else if n <? 65536 then [224 + n / 4096; 128 + (n / 64) mod 64; 128 + n mod 64]
   else [240 + n / 262144; 128 + (n / 4096) mod 64; 128 + (n / 64) mod 64; 128 + n mod 64])%N.
Definition encodes (l : bytes) (ns : list N) : Prop := map code l = concat (map encode ns).
Lemma code_256 c : (code c < 256)%N.
Proof. unfold code. apply N_ascii_bounded. Qed.
Lemma between_spec lo hi c : Text.between lo hi c = true <-> (lo <= code c <= hi)%N.
Proof. unfold Text.between. rewrite andb_true_iff, N.leb_le, N.leb_le. reflexivity. Qed.
Lemma utf8_sound k : forall l, length l <= k -> utf8 l = true -> exists ns, Forall scalar ns /\ encodes l ns.
Proof.
  induction k as [|k IH]; intros l H U.
  - destruct l; [|cbn in H; lia]. exists []. split; [constructor|reflexivity].
  - destruct l as [|a l]; [exists []; split; [constructor|reflexivity]|]. cbn [utf8] in U. cbn [length] in H.
    assert (STEP : forall n pre rest, l = pre ++ rest -> utf8 rest = true -> scalar n -> code a :: map code pre = encode n -> exists ns, Forall scalar ns /\ encodes (a :: l) ns).
    { intros n pre rest -> U' S Q. rewrite app_length in H. destruct (IH rest ltac:(lia) U') as (ns & Sn & En). exists (n :: ns). split; [constructor; assumption|].
      unfold encodes in *. cbn [map concat]. rewrite map_app, En, <- Q. reflexivity. }
    destruct (Text.between 0 127 a) eqn:A1. { apply between_spec in A1. apply (STEP (code a) [] l); [reflexivity|exact U|unfold scalar; lia|]. unfold encode. destruct (N.ltb_spec (code a) 128); [reflexivity|lia]. }
    destruct l as [|b l]; [discriminate|].
    destruct (Text.between 194 223 a) eqn:A2.
    { apply andb_true_iff in U as [B1 U]. apply between_spec in A2. apply between_spec in B1.
      apply (STEP ((code a - 192) * 64 + (code b - 128))%N [b] l); [reflexivity|exact U|unfold scalar; lia|].
      unfold encode. set (n := ((code a - 192) * 64 + (code b - 128))%N). destruct (N.ltb_spec n 128); [unfold n in *; lia|]. destruct (N.ltb_spec n 2048); [|unfold n in *; lia].
      cbn [map]. repeat f_equal; unfold n; lia. }
    destruct l as [|c l]; [discriminate|].
    assert (T3 : forall lo hi, Text.between lo hi b && cont c && utf8 l = true -> (128 <= lo)%N -> (hi <= 191)%N -> (224 <= code a <= 239)%N ->
              (code a = 224 -> 160 <= lo)%N -> (code a = 237 -> hi <= 159)%N -> exists ns, Forall scalar ns /\ encodes (a :: b :: c :: l) ns).
    { intros lo hi V L1 L2 A L3 L4. apply andb_true_iff in V as [V U']. apply andb_true_iff in V as [B1 C1]. apply between_spec in B1. apply between_spec in C1.
      apply (STEP ((code a - 224) * 4096 + (code b - 128) * 64 + (code c - 128))%N [b; c] l); [reflexivity|exact U'|unfold scalar; lia|].
      unfold encode. set (n := ((code a - 224) * 4096 + (code b - 128) * 64 + (code c - 128))%N).
      assert (2048 <= n)%N by (unfold n; lia). assert (n < 65536)%N by (unfold n; lia).
      destruct (N.ltb_spec n 128); [lia|]. destruct (N.ltb_spec n 2048); [lia|]. destruct (N.ltb_spec n 65536); [|lia].
      cbn [map]. repeat f_equal; unfold n; lia. }
    destruct (Text.between 224 224 a) eqn:A3. { apply between_spec in A3. apply (T3 160%N 191%N U); lia. }
    destruct (Text.between 225 236 a || Text.between 238 239 a) eqn:A4.
    { apply orb_true_iff in A4. rewrite !between_spec in A4. apply (T3 128%N 191%N U); lia. }
    destruct (Text.between 237 237 a) eqn:A5. { apply between_spec in A5. apply (T3 128%N 159%N U); lia. }
    destruct l as [|d l]; [discriminate|].
    assert (T4 : forall lo hi, Text.between lo hi b && cont c && cont d && utf8 l = true -> (128 <= lo)%N -> (hi <= 191)%N -> (240 <= code a <= 244)%N ->
              (code a = 240 -> 144 <= lo)%N -> (code a = 244 -> hi <= 143)%N -> exists ns, Forall scalar ns /\ encodes (a :: b :: c :: d :: l) ns).
    { intros lo hi V L1 L2 A L3 L4. apply andb_true_iff in V as [V U']. apply andb_true_iff in V as [V D1]. apply andb_true_iff in V as [B1 C1].
      apply between_spec in B1. apply between_spec in C1. apply between_spec in D1.
      apply (STEP ((code a - 240) * 262144 + (code b - 128) * 4096 + (code c - 128) * 64 + (code d - 128))%N [b; c; d] l); [reflexivity|exact U'|unfold scalar; lia|].
      unfold encode. set (n := ((code a - 240) * 262144 + (code b - 128) * 4096 + (code c - 128) * 64 + (code d - 128))%N).
      assert (65536 <= n)%N by (unfold n; lia).
      destruct (N.ltb_spec n 128); [lia|]. destruct (N.ltb_spec n 2048); [lia|]. destruct (N.ltb_spec n 65536); [lia|].
      cbn [map]. repeat f_equal; unfold n; lia. }
    destruct (Text.between 240 240 a) eqn:A6. { apply between_spec in A6. apply (T4 144%N 191%N U); lia. }
    destruct (Text.between 241 243 a) eqn:A7. { apply between_spec in A7. apply (T4 128%N 191%N U); lia. }
    destruct (Text.between 244 244 a) eqn:A8. { apply between_spec in A8. apply (T4 128%N 143%N U); lia. }
    discriminate.
Qed.
Lemma between_intro lo hi c : (lo <= code c <= hi)%N -> Text.between lo hi c = true.
Proof. apply between_spec. Qed.
Lemma between_out lo hi c : (code c < lo \/ hi < code c)%N -> Text.between lo hi c = false.
Proof. intros H. destruct (Text.between lo hi c) eqn:Q; [|reflexivity]. apply between_spec in Q. lia. Qed.
Ltac btw := repeat match goal with
  | |- context[Text.between ?lo ?hi ?c] => first [rewrite (between_intro lo hi c) by lia | rewrite (between_out lo hi c) by lia]
  end; cbn [orb andb].
Lemma codes_cons a l x y : map code (a :: l) = x :: y -> code a = x /\ map code l = y.
Proof. intros Q. cbn [map] in Q. exact (conj (f_equal (hd 0%N) Q) (f_equal (@tl N) Q)). Qed.
Lemma utf8_complete ns : forall l, Forall scalar ns -> encodes l ns -> utf8 l = true.
Proof.
  induction ns as [|n ns IH]; intros l S Q.
  - destruct l; [reflexivity|discriminate Q].
  - inversion_clear S as [|? ? S1 S2]. unfold encodes in Q. cbn [map concat] in Q. unfold encode in Q. unfold scalar in S1.
    destruct (N.ltb_spec n 128) as [L1|L1].
    { cbn [app] in Q. destruct l as [|a l]; [discriminate Q|]. apply codes_cons in Q as [Qa Q]. cbn [utf8]. btw. apply IH; assumption. }
    destruct (N.ltb_spec n 2048) as [L2|L2].
    { cbn [app] in Q. destruct l as [|a [|b l]]; try discriminate Q. apply codes_cons in Q as [Qa Q]. apply codes_cons in Q as [Qb Q]. cbn [utf8]. unfold cont. btw. apply IH; assumption. }
    destruct (N.ltb_spec n 65536) as [L3|L3].
    { cbn [app] in Q. destruct l as [|a [|b [|c l]]]; try discriminate Q. apply codes_cons in Q as [Qa Q]. apply codes_cons in Q as [Qb Q]. apply codes_cons in Q as [Qc Q]. cbn [utf8]. unfold cont.
      rewrite (between_out 0 127) by lia. rewrite (between_out 194 223) by lia.
      pose proof (IH l S2 Q) as U.
      destruct (N.eq_dec (code a) 224); [btw; exact U|]. rewrite (between_out 224 224) by lia.
      destruct (N.eq_dec (code a) 237); [btw; exact U|].
      destruct (N.lt_ge_cases (code a) 237); btw; exact U. }
    cbn [app] in Q. destruct l as [|a [|b [|c [|d l]]]]; try discriminate Q. apply codes_cons in Q as [Qa Q]. apply codes_cons in Q as [Qb Q]. apply codes_cons in Q as [Qc Q]. apply codes_cons in Q as [Qd Q]. cbn [utf8]. unfold cont.
    pose proof (IH l S2 Q) as U.
    rewrite (between_out 0 127), (between_out 194 223), (between_out 224 224), (between_out 225 236), (between_out 238 239), (between_out 237 237) by lia. cbn [orb].
    destruct (N.eq_dec (code a) 240); [btw; exact U|]. rewrite (between_out 240 240) by lia.
    destruct (N.eq_dec (code a) 244); [btw; exact U|]. btw; exact U.
Qed.
Theorem C39_utf8 : forall l, utf8 l = true <-> exists ns, Forall scalar ns /\ encodes l ns.
Proof. intros l. split; [apply (utf8_sound (length l)); lia|]. intros (ns & S & Q). exact (utf8_complete ns l S Q). Qed.
Print Assumptions C39_utf8.
(** "é" (two bytes) is a scalar value; an overlong slash, a lone continuation byte and a surrogate are not text *)
Example C39_utf8_case : utf8 (map ascii_of_N [195; 169]%N) = true /\ utf8 (map ascii_of_N [192; 175]%N) = false /\
  utf8 (map ascii_of_N [128]%N) = false /\ utf8 (map ascii_of_N [237; 160; 128]%N) = false /\ encodes (map ascii_of_N [195; 169]%N) [233%N].
Proof. repeat split. Qed.

(** ** line ends: a matrix file written with carriage returns reads as the same file without them *)
Lemma utf8_ascii_n c r : (code c < 128)%N -> forall n l, length l <= n -> utf8 (l ++ c :: r) = utf8 l && utf8 r.
Proof.
  intros C. assert (C0 : Text.between 0 127 c = true) by (apply between_intro; lia). assert (B : forall lo hi, (128 <= lo)%N -> Text.between lo hi c = false) by (intros; apply between_out; lia).
  assert (CC : cont c = false) by (apply B; lia).
  induction n as [|n IH]; intros l H.
  - destruct l; [|cbn in H; lia]. cbn [app utf8]. rewrite C0. reflexivity.
  - destruct l as [|x l]; [cbn [app utf8]; rewrite C0; reflexivity|]. cbn [app utf8]. cbn [length] in H.
    destruct (Text.between 0 127 x); [apply IH; lia|].
    destruct l as [|y l]; [cbn [app]; rewrite CC, !B by lia; cbn [andb]; destruct (Text.between 194 223 x); [reflexivity|]; destruct r as [|z r]; [reflexivity|]|].
    { destruct (Text.between 224 224 x), (Text.between 225 236 x || Text.between 238 239 x), (Text.between 237 237 x); try reflexivity. destruct r; [reflexivity|]. destruct (Text.between 240 240 x), (Text.between 241 243 x), (Text.between 244 244 x); reflexivity. }
    cbn [app]. cbn [length] in H.
    destruct (Text.between 194 223 x); [rewrite IH by lia; rewrite andb_assoc; reflexivity|].
    destruct l as [|z l]; [cbn [app]; rewrite CC, !andb_false_r; cbn [andb]|].
    { destruct (Text.between 224 224 x), (Text.between 225 236 x || Text.between 238 239 x), (Text.between 237 237 x); try reflexivity. destruct r; [reflexivity|]. destruct (Text.between 240 240 x), (Text.between 241 243 x), (Text.between 244 244 x); reflexivity. }
    cbn [app]. cbn [length] in H.
    destruct (Text.between 224 224 x); [rewrite IH by lia; rewrite !andb_assoc; reflexivity|].
    destruct (Text.between 225 236 x || Text.between 238 239 x); [rewrite IH by lia; rewrite !andb_assoc; reflexivity|].
    destruct (Text.between 237 237 x); [rewrite IH by lia; rewrite !andb_assoc; reflexivity|].
    destruct l as [|w l]; [cbn [app]; rewrite CC, !andb_false_r; cbn [andb]; destruct (Text.between 240 240 x), (Text.between 241 243 x), (Text.between 244 244 x); reflexivity|].
    cbn [app]. cbn [length] in H. rewrite IH by lia.
    destruct (Text.between 240 240 x), (Text.between 241 243 x), (Text.between 244 244 x); try reflexivity; rewrite !andb_assoc; reflexivity.
Qed.
Lemma utf8_ascii c r l : (code c < 128)%N -> utf8 (l ++ c :: r) = utf8 l && utf8 r.
Proof. intros C. apply (utf8_ascii_n c r C (length l)). lia. Qed.
(** the lines ended by a carriage return and a newline *)
Definition dos_text (ls : list bytes) : bytes := concat (map (fun l => l ++ [CR; NL]) ls).
Lemma dos_text_of ls : dos_text ls = text_of (map (fun l => l ++ [CR]) ls).
Proof. unfold dos_text, text_of. rewrite map_map. f_equal. apply map_ext. intros l. rewrite <- app_assoc. reflexivity. Qed.
Lemma utf8_lines ls : utf8 (dos_text ls) = utf8 (text_of ls).
Proof.
  unfold dos_text, text_of. induction ls as [|l ls IH]; [reflexivity|]. cbn [map concat]. rewrite <- !app_assoc. cbn [app].
  rewrite !utf8_ascii by (vm_compute; reflexivity). rewrite <- IH. reflexivity.
Qed.
Lemma strip_cr_end l : strip_cr (l ++ [CR]) = l.
Proof. induction l as [|c l IH]; [reflexivity|]. cbn [app strip_cr]. rewrite IH. destruct l; reflexivity. Qed.
Lemma dos_lines ls : Forall one_line ls -> lines (dos_text ls) = ls.
Proof.
  intros H. rewrite dos_text_of. unfold lines. rewrite split_text.
  - induction ls as [|l ls IH]; [reflexivity|]. inversion_clear H as [|? ? H1 H2]. cbn [map app lines_of]. rewrite strip_cr_end, (IH H2). destruct ls; reflexivity.
  - apply Forall_map. eapply Forall_impl; [|exact H]. intros l Hl Q. apply in_app_or in Q as [Q|[Q|[]]]; [exact (Hl Q)|discriminate Q].
Qed.
Theorem C38_line_ends : forall (N : Num) parse ls, Forall one_line ls -> Forall (fun l => ~ In CR l) ls ->
  read_colour_matrix (N := N) parse (dos_text ls) = read_colour_matrix parse (text_of ls) /\
  read_matrix (N := N) parse (dos_text ls) = read_matrix parse (text_of ls).
Proof.
  intros N parse ls H1 H2. unfold read_colour_matrix, read_matrix, read_any. rewrite utf8_lines, dos_lines, lines_text by assumption. split; reflexivity.
Qed.
Print Assumptions C38_line_ends.

(** ** new images are black *)
Theorem C32_new : forall (N : Num) w h, img_width (img_new (N := N) w h) = w /\ img_height (img_new (N := N) w h) = h /\
  length (img_pixels (img_new (N := N) w h)) = w * h /\ Forall (fun p => p = mkS f0 f0 f0) (img_pixels (img_new (N := N) w h)).
Proof.
  intros N w h. unfold img_new. cbn [img_width img_height img_pixels]. repeat split; [apply repeat_length|]. apply Forall_forall. intros p Q. apply repeat_spec in Q. exact Q.
Qed.
Print Assumptions C32_new.
(** a header and one row written under DOS *)
Example C38_line_ends_case : let ls := [lit "NROWS=1"; lit "NCOLS=1"; lit "NCOMP=3"; lit ""; lit "1 2 3"] in
  Forall one_line ls /\ Forall (fun l => ~ In CR l) ls /\ dos_text ls <> text_of ls.
Proof.
  cbv zeta. split; [|split].
  - repeat constructor; intros Q; vm_compute in Q; intuition discriminate.
  - repeat constructor; intros Q; vm_compute in Q; intuition discriminate.
  - vm_compute. discriminate.
Qed.

(** ** files that cannot be opened end the tools with a message, not a panic *)
From Verif Require Import Tools SpecTools.
Theorem C64_missing_file : forall (N : Num) (T : Trig N) read_file (i : CompareInputs), read_file (ci_input1 i) = None -> scompare read_file i = Ret Exited.
Proof. intros N T read_file i H. unfold scompare, load_image. rewrite H. reflexivity. Qed.
Print Assumptions C64_missing_file.
Theorem C64_missing_second : forall (N : Num) (T : Trig N) read_file (i : CompareInputs) content a, read_file (ci_input1 i) = Some content -> from_file content = Ret (Some a) ->
  read_file (ci_input2 i) = None -> scompare read_file i = Ret Exited.
Proof. intros N T read_file i content a H H1 H2. unfold scompare, load_image. rewrite H, H1, H2. reflexivity. Qed.
Print Assumptions C64_missing_second.
Theorem C65_missing_file : forall (N : Num) (T : Trig N) read_file name mn mx lg m, read_file name = None -> sfalsecolor read_file name mn mx lg m = Ret Exited.
Proof. intros N T read_file name mn mx lg m H. unfold sfalsecolor, load_image. rewrite H. reflexivity. Qed.
Print Assumptions C65_missing_file.
