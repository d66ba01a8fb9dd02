(** * Proofs about the texts read by the programs *)
From Verif Require Import Text TextProofs HeaderProofs Geometry SpecImage Tools SpecTools.
Open Scope nat_scope.

(** ** UTF-8 *)
Lemma utf8_nl_n n : forall l, length l <= n -> utf8 (l ++ [NL]) = utf8 l.
Proof.
  induction n as [|n IH]; intros l H.
  - destruct l; [reflexivity|cbn in H; lia].
  - destruct l as [|a l]; [reflexivity|]. cbn [app utf8]. cbn [length] in H.
    destruct (Text.between 0 127 a); [apply IH; lia|].
    destruct l as [|b l]; [cbn [app]; destruct (Text.between 194 223 a); reflexivity|]. cbn [app]. cbn [length] in H.
    destruct (Text.between 194 223 a); [rewrite IH by lia; reflexivity|].
    destruct l as [|c l]; [cbn [app]|].
    { destruct (Text.between 224 224 a), (Text.between 225 236 a || Text.between 238 239 a), (Text.between 237 237 a); try reflexivity;
        change (cont NL) with false; rewrite ?andb_false_r; reflexivity. }
    cbn [app]. cbn [length] in H.
    destruct (Text.between 224 224 a); [rewrite IH by lia; reflexivity|].
    destruct (Text.between 225 236 a || Text.between 238 239 a); [rewrite IH by lia; reflexivity|].
    destruct (Text.between 237 237 a); [rewrite IH by lia; reflexivity|].
    destruct l as [|d l]; [cbn [app]|].
    { change (cont NL) with false. rewrite !andb_false_r. destruct (Text.between 240 240 a), (Text.between 241 243 a), (Text.between 244 244 a); reflexivity. }
    cbn [app]. cbn [length] in H. rewrite IH by lia. reflexivity.
Qed.
Lemma utf8_nl l : utf8 (l ++ [NL]) = utf8 l.
Proof. apply (utf8_nl_n (length l)). apply le_n. Qed.

(** ** stripping words of a set in which no word begins another *)
Definition apart (ps : list bytes) : bool :=
  forallb (fun p => nonempty p && forallb (fun q => bytes_eqb p q || negb (starts_with p q) && negb (starts_with q p)) ps) ps.
Lemma common_start (l p q : bytes) : begins l p -> begins l q -> begins p q \/ begins q p.
Proof.
  intros [r ->] [r' E]. revert q E. induction p as [|x p IH]; intros [|y q] E; cbn in *.
  - left. exists []. reflexivity.
  - right. exists (y :: q). reflexivity.
  - left. exists (x :: p). reflexivity.
  - injection E as -> E. destruct (IH q E) as [[u ->]|[u ->]]; [left|right]; exists u; reflexivity.
Qed.
Lemma apart_spec ps : apart ps = true -> (forall p, In p ps -> p <> []) /\ (forall p q l, In p ps -> In q ps -> begins l p -> begins l q -> p = q).
Proof.
  intros H. unfold apart in H. rewrite forallb_forall in H. split.
  - intros p Hp. specialize (H p Hp). apply andb_prop in H as [H _]. destruct p; [discriminate|congruence].
  - intros p q l Hp Hq Bp Bq. pose proof (H p Hp) as Hpq. apply andb_prop in Hpq as [_ Hpq]. rewrite forallb_forall in Hpq. specialize (Hpq q Hq).
    apply orb_prop in Hpq as [E|E]; [apply bytes_eqb_eq; exact E|]. apply andb_prop in E as [E1 E2]. apply negb_true_iff in E1, E2.
    apply not_begins in E1, E2. destruct (common_start _ _ _ Bp Bq); contradiction.
Qed.
Lemma strip_one_some ps l r : strip_one ps l = Some r -> exists p, In p ps /\ l = p ++ r.
Proof.
  induction ps as [|p ps IH]; cbn; [discriminate|]. destruct (starts_with l p) eqn:E.
  - apply starts_with_spec in E as [u ->]. rewrite skipn_app, Nat.sub_diag, skipn_all. cbn. intros Q. injection Q as <-. exists p. auto.
  - intros Q. destruct (IH Q) as (q & H1 & H2). exists q. auto.
Qed.
Lemma strip_one_none ps l : strip_one ps l = None <-> forall p, In p ps -> ~ begins l p.
Proof.
  induction ps as [|p ps IH]; cbn; [split; [intros _ p []|reflexivity]|]. destruct (starts_with l p) eqn:E.
  - split; [discriminate|]. intros H. exfalso. apply (H p (or_introl eq_refl)). apply begins_spec. exact E.
  - rewrite IH. apply not_begins in E. split; [intros H q [<-|Hq]; auto|intros H q Hq; apply H; auto].
Qed.
Lemma strip_one_word ps p r : apart ps = true -> In p ps -> strip_one ps (p ++ r) = Some r.
Proof.
  intros A Hp. apply apart_spec in A as [_ A]. destruct (strip_one ps (p ++ r)) as [r'|] eqn:E.
  - apply strip_one_some in E as (q & Hq & E). assert (p = q).
    { apply (A p q (p ++ r) Hp Hq); [exists r; reflexivity|exists r'; exact E]. } subst q. f_equal. symmetry. eapply app_inv_head. exact E.
  - exfalso. apply (proj1 (strip_one_none _ _) E p Hp). exists r. reflexivity.
Qed.
Lemma strip_many_spec ps l : apart ps = true -> forall fuel, length l <= fuel ->
  exists ws, Forall (fun w => In w ps) ws /\ l = concat ws ++ strip_many fuel ps l /\ forall p, In p ps -> ~ begins (strip_many fuel ps l) p.
Proof.
  intros A fuel. revert l. induction fuel as [|fuel IH]; intros l H.
  - destruct l; [|cbn in H; lia]. exists []. split; [constructor|]. split; [reflexivity|]. cbn. intros p Hp [r E].
    apply apart_spec in A as [A _]. destruct p; [exact (A _ Hp eq_refl)|discriminate].
  - cbn [strip_many]. destruct (strip_one ps l) as [r|] eqn:E.
    + apply strip_one_some in E as (p & Hp & ->). destruct (IH r) as (ws & W1 & W2 & W3).
      { apply apart_spec in A as [A _]. specialize (A p Hp). rewrite app_length in H. destruct p; [contradiction|cbn in H; lia]. }
      exists (p :: ws). split; [constructor; assumption|]. split; [cbn [concat]; rewrite <- app_assoc, <- W2; reflexivity|exact W3].
    + exists []. split; [constructor|]. split; [reflexivity|]. apply strip_one_none. exact E.
Qed.
Lemma strip_many_unique ps ws t : apart ps = true -> Forall (fun w => In w ps) ws -> (forall p, In p ps -> ~ begins t p) ->
  forall fuel, length (concat ws ++ t) <= fuel -> strip_many fuel ps (concat ws ++ t) = t.
Proof.
  intros A W H. induction W as [|p ws Hp W IH]; intros fuel L; cbn [concat app] in *.
  - destruct fuel; cbn [strip_many]; [reflexivity|]. rewrite (proj2 (strip_one_none ps t) H). reflexivity.
  - rewrite <- app_assoc in L |- *. pose proof (proj1 (apart_spec _ A) p Hp) as NE. rewrite app_length in L.
    destruct fuel; [destruct p; [contradiction|cbn in L; lia]|]. cbn [strip_many]. rewrite (strip_one_word _ _ _ A Hp). apply IH.
    destruct p; [contradiction|cbn in L; lia].
Qed.

(** ** trim *)
Lemma white_table : white_words = white_chars. Proof. vm_compute. reflexivity. Qed.
Lemma white_apart : apart white_chars = true. Proof. vm_compute. reflexivity. Qed.
Lemma white_apart' : apart (map (@rev _) white_chars) = true. Proof. vm_compute. reflexivity. Qed.
Definition lead (c : ascii) : bool := negb (cont c).
Definition well_led (w : bytes) : bool := match w with [] => false | c :: w => lead c && forallb cont w end.
Lemma white_led : forallb well_led white_chars = true. Proof. vm_compute. reflexivity. Qed.
Lemma white_cons l : white l -> l = [] \/ exists c r, l = c :: r /\ cont c = false.
Proof.
  intros (ws & W & ->). destruct W as [|w ws Hw W]; [left; reflexivity|]. right. pose proof white_led as L. rewrite forallb_forall in L. specialize (L w Hw).
  destruct w as [|c w]; [discriminate|]. cbn in L. apply andb_prop in L as [L _]. exists c, (w ++ concat ws). split; [reflexivity|]. apply negb_true_iff. exact L.
Qed.
Lemma white_rev ws : Forall (fun w => In w (map (@rev ascii) white_chars)) ws -> exists ws', Forall (fun w => In w white_chars) ws' /\ rev (concat ws) = concat ws'.
Proof.
  induction 1 as [|w ws Hw W IH]; [exists []; split; [constructor|reflexivity]|]. destruct IH as (ws' & W' & E). apply in_map_iff in Hw as (u & <- & Hu).
  exists (ws' ++ [u]). split; [apply Forall_app; auto|]. cbn [concat]. rewrite rev_app_distr, rev_involutive, E, concat_app. cbn. rewrite app_nil_r. reflexivity.
Qed.
Lemma rev_white ws : Forall (fun w => In w white_chars) ws -> exists ws', Forall (fun w => In w (map (@rev ascii) white_chars)) ws' /\ rev (concat ws) = concat ws'.
Proof.
  induction 1 as [|w ws Hw W IH]; [exists []; split; [constructor|reflexivity]|]. destruct IH as (ws' & W' & E).
  exists (ws' ++ [rev w]). split; [apply Forall_app; split; [exact W'|constructor; [apply in_map; exact Hw|constructor]]|].
  cbn [concat]. rewrite rev_app_distr, E, concat_app. cbn. rewrite app_nil_r. reflexivity.
Qed.
Lemma trim_core s : core s (trim s).
Proof.
  unfold trim, trim_start, trim_end. destruct (strip_many_spec white_chars s white_apart (length s) (le_n _)) as (ws & W1 & W2 & W3).
  set (m := strip_many (length s) white_chars s) in *.
  destruct (strip_many_spec _ (rev m) white_apart' (length m)) as (us & U1 & U2 & U3); [rewrite rev_length; apply le_n|].
  set (t := strip_many (length m) (map (@rev _) white_chars) (rev m)) in *. destruct (white_rev us U1) as (us' & U1' & Eu).
  assert (Em : m = rev t ++ concat us') by (rewrite <- Eu, <- rev_app_distr, <- U2, rev_involutive; reflexivity).
  exists (concat ws), (concat us'). rewrite <- Em. split; [exact W2|]. split; [exists ws; auto|]. split; [exists us'; auto|]. split.
  - intros w Hw [r E]. apply (W3 w Hw). exists (r ++ concat us'). rewrite Em, E, app_assoc. reflexivity.
  - intros w r Hw E. apply (U3 (rev w)); [apply in_map; exact Hw|]. exists (rev r). rewrite <- rev_app_distr, <- E, rev_involutive. reflexivity.
Qed.
Lemma core_trim s t : core s t -> trim s = t.
Proof.
  intros (pre & post & -> & (ws & W & ->) & Wpost & H1 & H2).
  destruct t as [|c t].
  - cbn [app]. destruct Wpost as (us & U & ->). unfold trim, trim_start. replace (concat ws ++ concat us) with (concat (ws ++ us) ++ []) by (rewrite app_nil_r, concat_app; reflexivity).
    rewrite strip_many_unique; [reflexivity|exact white_apart|apply Forall_app; auto| |apply le_n].
    intros p Hp [r E]. apply (H1 p Hp). exists r. exact E.
  - set (u := c :: t) in *. assert (NB : forall p, In p white_chars -> ~ begins (u ++ post) p).
    { intros p Hp [r E]. pose proof white_led as L. rewrite forallb_forall in L. specialize (L p Hp).
      destruct (common_start (u ++ post) u p) as [[x E']|[x E']]; [exists post; reflexivity|exists r; exact E| |].
      - apply (H1 p Hp). exists x. exact E'.
      - subst p. rewrite <- app_assoc in E. apply app_inv_head in E. unfold u in L. cbn in L. apply andb_prop in L as [_ L]. rewrite forallb_app in L. apply andb_prop in L as [_ L].
        destruct x as [|y x]; [apply (H1 u); [rewrite app_nil_r in Hp; exact Hp|exists []; rewrite app_nil_r; reflexivity]|].
        cbn in L. apply andb_prop in L as [L _]. destruct (white_cons post Wpost) as [->|(d & post' & -> & Ld)]; [discriminate|]. injection E as -> _. congruence. }
    unfold trim, trim_start. rewrite strip_many_unique; [|exact white_apart|exact W|exact NB|apply le_n].
    unfold trim_end. destruct Wpost as (us & U & ->). destruct (rev_white us U) as (us' & U' & E). rewrite rev_app_distr, E.
    rewrite strip_many_unique; [apply rev_involutive|exact white_apart'|exact U'| |].
    + intros p Hp [r Er]. apply in_map_iff in Hp as (w & <- & Hw). apply (H2 w (rev r) Hw). rewrite <- (rev_involutive w), <- rev_app_distr, <- Er, rev_involutive. reflexivity.
    + rewrite !app_length, <- E, !rev_length. lia.
Qed.
Lemma core_spec s t : core s t <-> trim s = t.
Proof. split; [apply core_trim|intros <-; apply trim_core]. Qed.
Lemma core_nl s t : core s t -> core (s ++ [NL]) t.
Proof.
  intros (pre & post & -> & W1 & (us & U & ->) & H). exists pre, (concat us ++ [NL]). split; [rewrite <- !app_assoc; reflexivity|]. split; [exact W1|]. split; [|exact H].
  exists (us ++ [[NL]]). split; [apply Forall_app; split; [exact U|constructor; [cbn; auto|constructor]]|]. rewrite concat_app. reflexivity.
Qed.
Lemma trim_nl s : trim (s ++ [NL]) = trim s.
Proof. apply core_spec. apply core_nl. apply trim_core. Qed.

(** ** words separated by spaces *)
Lemma space_not l : Forall (fun c => beqb SPACE c = false) l <-> no_space l.
Proof.
  unfold no_space. rewrite Forall_forall. split.
  - intros H Hx. specialize (H _ Hx). rewrite beqb_refl in H. discriminate.
  - intros H x Hx. destruct (beqb SPACE x) eqn:E; [|reflexivity]. apply beqb_eq in E. subst. contradiction.
Qed.
Lemma split_spaced ws : ws <> [] -> Forall no_space ws -> split_on (beqb SPACE) (spaced ws) = ws.
Proof.
  intros NE H. induction H as [|w ws Hw H IH]; [contradiction|]. cbn [spaced]. destruct ws as [|v ws].
  - apply split_on_none. apply space_not. exact Hw.
  - rewrite split_on_sep; [rewrite IH by discriminate; reflexivity|apply space_not; exact Hw|apply beqb_refl].
Qed.
Lemma spaced_split l : exists ws, split_on (beqb SPACE) l = ws /\ l = spaced ws /\ ws <> [] /\ Forall no_space ws.
Proof.
  assert (G : forall ws l, split_on (beqb SPACE) l = ws -> l = spaced ws /\ ws <> [] /\ Forall no_space ws).
  { clear. induction ws as [|w ws IH]; intros l E; [exfalso; exact (split_on_nonempty _ _ E)|]. destruct (split_on_inv _ _ _ _ E) as [H M].
    apply space_not in H. destruct ws as [|v ws].
    - split; [exact M|]. split; [discriminate|]. constructor; [exact H|constructor].
    - destruct M as (c & l' & Hc & -> & E'). apply beqb_eq in Hc as <-. destruct (IH l' E') as (-> & _ & Q). split; [reflexivity|]. split; [discriminate|]. constructor; assumption. }
  exists (split_on (beqb SPACE) l). split; [reflexivity|]. apply G. reflexivity.
Qed.

Section Lines.
  Context {N : Num} (parse : bytes -> option F).
  Lemma parse_all_spec ws xs : parse_all parse ws = Some xs <-> Forall2 (fun w x => parse w = Some x) ws xs.
  Proof.
    revert xs. induction ws as [|w ws IH]; intros xs; cbn.
    - split; [intros E; injection E as <-; constructor|intros H; inversion H; reflexivity].
    - destruct (parse w) as [x|] eqn:E.
      + destruct (parse_all parse ws) as [ys|] eqn:Ea; cbn.
        * split; [intros Q; injection Q as <-; constructor; [exact E|apply IH; reflexivity]|].
          intros H. inversion H as [|? y ? ys' H1 H2]; subst. apply IH in H2. rewrite E in H1. congruence.
        * split; [discriminate|]. intros H. inversion H as [|? y ? ys' H1 H2]; subst. apply IH in H2. discriminate.
      + split; [discriminate|]. intros H. inversion H as [|? y ? ys' H1 H2]; subst. congruence.
  Qed.
  (* [says_numbers] in terms of the functions of the model *)
  Lemma says_split s xs : xs <> [] -> (says_numbers parse s xs <-> parse_all parse (split_on (beqb SPACE) (trim s)) = Some xs).
  Proof.
    intros NE. split.
    - intros (ws & C & NS & F2). apply core_spec in C. rewrite C, split_spaced; [apply parse_all_spec; exact F2| |exact NS].
      intros ->. inversion F2. subst. contradiction.
    - intros H. destruct (spaced_split (trim s)) as (ws & E & S1 & S2 & S3). rewrite E in H. exists ws. split; [apply core_spec; exact S1|]. split; [exact S3|].
      apply parse_all_spec. exact H.
  Qed.
  Lemma parse_all_length ws xs : parse_all parse ws = Some xs -> length ws = length xs.
  Proof. intros H. apply parse_all_spec in H. induction H; cbn; congruence. Qed.
  Lemma triplet_spec s a b c : triplet_of parse s = Some (a, b, c) <-> says_numbers parse s [a; b; c].
  Proof.
    rewrite says_split by discriminate. unfold triplet_of. set (st := split_on (beqb SPACE) (trim s)). split.
    - destruct st as [|w1 [|w2 [|w3 [|]]]]; try discriminate. intros H. destruct (parse_all parse _) as [[|x [|y [|z [|]]]]|]; try discriminate. injection H as -> -> ->. reflexivity.
    - intros H. pose proof (parse_all_length _ _ H) as L. rewrite H. destruct st as [|w1 [|w2 [|w3 [|]]]]; try discriminate. reflexivity.
  Qed.
  Lemma sensor_spec s ray : sensor_of parse s = Some ray <-> sensor_text parse s ray.
  Proof.
    unfold sensor_text, sensor_of. split.
    - intros H. destruct (split_on (beqb SPACE) (trim s)) as [|w1 [|w2 [|w3 [|w4 [|w5 [|w6 [|]]]]]]] eqn:Es; try discriminate.
      destruct (parse_all parse _) as [xs|] eqn:E in H; [|discriminate]. destruct xs as [|x1 [|x2 [|x3 [|x4 [|x5 [|x6 [|]]]]]]]; try discriminate. injection H as <-.
      exists x1, x2, x3, x4, x5, x6. split; [|reflexivity]. apply says_split; [discriminate|]. rewrite Es. exact E.
    - intros (x1 & x2 & x3 & x4 & x5 & x6 & H & ->). apply says_split in H; [|discriminate]. pose proof (parse_all_length _ _ H) as L. rewrite H.
      destruct (split_on (beqb SPACE) (trim s)) as [|w1 [|w2 [|w3 [|w4 [|w5 [|w6 [|]]]]]]]; try discriminate. reflexivity.
  Qed.
  Lemma sensor_of_nl l : sensor_of parse (l ++ [NL]) = sensor_of parse l.
  Proof. unfold sensor_of. rewrite trim_nl. reflexivity. Qed.

  Lemma next_line_end l : one_line l -> next_line l = (l, []).
  Proof. intros H. unfold next_line. apply one_line_forall, cut_line_none in H. rewrite H. reflexivity. Qed.
  Lemma next_line_nl l rest : one_line l -> next_line (l ++ NL :: rest) = (l ++ [NL], rest).
  Proof. intros H. unfold next_line. apply one_line_forall in H. rewrite (cut_line_app _ _ H). reflexivity. Qed.

  (* what the loop does with one line *)
  Lemma read_sensors_step fuel input l ls acc : typed input (l :: ls) ->
    exists rest, typed rest ls /\ length rest < length input /\
    read_sensors parse (S fuel) input acc =
      if utf8 l then match sensor_of parse l with Some ray => read_sensors parse fuel rest (acc ++ [ray]) | None => Ret None end
      else Ret (Some acc).
  Proof.
    intros T. cbn [read_sensors]. inversion T; subst.
    - exists []. split; [constructor|]. split; [destruct l; [contradiction|cbn; lia]|]. rewrite next_line_end by assumption. destruct (utf8 l); cbn [negb]; [|reflexivity].
      destruct l; [contradiction|reflexivity].
    - exists rest. split; [assumption|]. split; [rewrite app_length; cbn; lia|]. rewrite next_line_nl by assumption. rewrite utf8_nl.
      destruct (utf8 l); cbn [negb]; [|reflexivity]. rewrite sensor_of_nl. destruct (l ++ [NL]) eqn:E; [destruct l; discriminate|reflexivity].
  Qed.
  Lemma read_sensors_good before rays : Forall2 (sensor_line parse) before rays -> forall after input fuel acc, typed input (before ++ after) -> length input < fuel ->
    exists rest fuel', typed rest after /\ length rest < fuel' /\ read_sensors parse fuel input acc = read_sensors parse fuel' rest (acc ++ rays).
  Proof.
    induction 1 as [|l ray before rays [U S1] F2 IH]; intros after input fuel acc T L.
    - exists input, fuel. rewrite app_nil_r. auto.
    - destruct fuel as [|fuel]; [lia|]. destruct (read_sensors_step fuel input l (before ++ after) acc T) as (rest & T' & L' & E). rewrite U in E.
      apply sensor_spec in S1. rewrite S1 in E. destruct (IH after rest fuel (acc ++ [ray]) T' ltac:(lia)) as (rest' & fuel' & A & B & C).
      exists rest', fuel'. split; [exact A|]. split; [exact B|]. rewrite E, C, <- app_assoc. reflexivity.
  Qed.
End Lines.
Lemma typed_exists input : exists ls, typed input ls.
Proof.
  remember (length input) as n eqn:En. assert (L : length input <= n) by lia. clear En. revert input L. induction n as [|n IH]; intros input L.
  - destruct input; [|cbn in L; lia]. exists []. constructor.
  - destruct (cut_line input) as [[l rest]|] eqn:C.
    + pose proof (cut_line_length _ _ _ C) as L'. apply cut_line_some in C as [-> H]. destruct (IH rest ltac:(lia)) as (ls & T). exists (l :: ls). constructor; [|exact T].
      apply one_line_forall. exact H.
    + apply cut_line_none, one_line_forall in C. destruct input as [|c input]; [exists []; constructor|]. exists [c :: input]. constructor; [exact C|discriminate].
Qed.
Lemma no_nl_unique l r l' r' : one_line l -> one_line l' -> l ++ NL :: r = l' ++ NL :: r' -> l = l' /\ r = r'.
Proof.
  intros H H' E. apply one_line_forall in H, H'. pose proof (cut_line_app l r H) as C. rewrite E, (cut_line_app l' r' H') in C. injection C as -> ->. auto.
Qed.
Lemma typed_unique input ls : typed input ls -> forall ls', typed input ls' -> ls = ls'.
Proof.
  induction 1 as [|l O NE|l rest ls O T IH]; intros ls' T'.
  - inversion T' as [|? ? NE|? ? ? ? ? E]; subst; [reflexivity|contradiction|]. destruct l; discriminate.
  - inversion T' as [|? ? ?|l2 rest ? O2 ? E]; subst; [contradiction|reflexivity|]. exfalso. apply O. apply in_app_iff. right. left. reflexivity.
  - remember (l ++ NL :: rest) as x eqn:Ex in T'. destruct T' as [|x O2 NE|l2 rest2 ls2 O2 T2]; [destruct l; discriminate| |].
    + exfalso. apply O2. rewrite Ex. apply in_app_iff. right. left. reflexivity.
    + apply no_nl_unique in Ex as [-> ->]; [|assumption|assumption]. f_equal. apply IH. exact T2.
Qed.
