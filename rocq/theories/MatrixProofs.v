(** * Proofs about matrices and their files (any arithmetic) *)
From Verif Require Import Text TextProofs Colour Image SpecImage HeaderProofs ColourMatrix SpecMatrix.
Open Scope nat_scope.

Lemma Forall2_length {A B} {R : A -> B -> Prop} {l l'} : Forall2 R l l' -> length l = length l'.
Proof. induction 1; cbn; congruence. Qed.
(** ** loops *)
Lemma for_range_inv {S} (P : nat -> S -> Prop) n : forall i body s, P i s ->
  (forall j s, i <= j < i + n -> P j s -> exists s', body j s = Ret s' /\ P (Datatypes.S j) s') ->
  exists s', for_range i n body s = Ret s' /\ P (i + n) s'.
Proof.
  induction n as [|n IH]; intros i body s H0 H; cbn [for_range].
  - exists s. rewrite Nat.add_0_r. auto.
  - destruct (H i s ltac:(lia) H0) as (s1 & E & H1). rewrite E. cbn [obind].
    destruct (IH (Datatypes.S i) body s1 H1) as (s2 & E2 & H2); [intros j s' Hj; apply H; lia|].
    exists s2. split; [exact E2|]. replace (i + Datatypes.S n) with (Datatypes.S i + n) by lia. exact H2.
Qed.
Lemma for_range_app {A} (f : nat -> list A) n : forall i body out,
  (forall j out, i <= j < i + n -> body j out = Ret (out ++ f j)) ->
  for_range i n body out = Ret (out ++ concat (map f (seq i n))).
Proof.
  induction n as [|n IH]; intros i body out H; cbn [for_range seq map concat].
  - rewrite app_nil_r. reflexivity.
  - rewrite H by lia. cbn [obind]. rewrite (IH (S i)) by (intros; apply H; lia). rewrite <- app_assoc. reflexivity.
Qed.

(** ** get and set *)
Lemma replace_length {A} (l : list A) n v : length (replace_nth l n v) = length l.
Proof. revert n. induction l as [|x l IH]; intros [|n]; cbn; auto. Qed.
Lemma replace_nth_error {A} (l : list A) n v j : n < length l ->
  nth_error (replace_nth l n v) j = if Nat.eqb j n then Some v else nth_error l j.
Proof.
  revert n j. induction l as [|x l IH]; intros [|n] [|j] H; cbn in *; try lia; try reflexivity. apply IH. lia.
Qed.
Lemma replace_app {A} (a b : list A) x v : replace_nth (a ++ x :: b) (length a) v = a ++ v :: b.
Proof. induction a as [|y a IH]; cbn; [reflexivity|]. rewrite IH. reflexivity. Qed.
Lemma index_bound r c nr nc : r < nr -> c < nc -> r * nc + c < nr * nc.
Proof. nia. Qed.
Lemma index_inj r c r' c' nc : c < nc -> c' < nc -> r * nc + c = r' * nc + c' -> r = r' /\ c = c'.
Proof. intros H H' E. assert (r = r') by nia. subst. split; [reflexivity|lia]. Qed.

Lemma mat_get_some {A} (m : GMatrix A) r c : sized m -> r < m_rows m -> c < m_cols m -> exists v, mat_get m r c = Some v.
Proof.
  intros S Hr Hc. unfold mat_get. destruct (Nat.ltb_spec r (m_rows m)); [|lia]. destruct (Nat.ltb_spec c (m_cols m)); [|lia]. cbn.
  destruct (nth_error _ _) eqn:E; [eauto|]. apply nth_error_None in E. rewrite S in E. pose proof (index_bound r c _ _ Hr Hc). lia.
Qed.
Lemma mat_set_some {A} (m : GMatrix A) r c v : sized m -> r < m_rows m -> c < m_cols m ->
  exists m', mat_set m r c v = Some m' /\ sized m' /\ m_rows m' = m_rows m /\ m_cols m' = m_cols m /\
    (forall r' c', r' < m_rows m -> c' < m_cols m ->
       mat_get m' r' c' = if Nat.eqb r' r && Nat.eqb c' c then Some v else mat_get m r' c').
Proof.
  intros S Hr Hc. unfold mat_set. destruct (Nat.ltb_spec r (m_rows m)); [|lia]. destruct (Nat.ltb_spec c (m_cols m)); [|lia]. cbn [andb].
  eexists. split; [reflexivity|]. unfold sized. cbn [m_rows m_cols m_data]. rewrite replace_length. split; [exact S|].
  split; [reflexivity|]. split; [reflexivity|]. intros r' c' Hr' Hc'. unfold mat_get. cbn [m_rows m_cols m_data].
  destruct (Nat.ltb_spec r' (m_rows m)); [|lia]. destruct (Nat.ltb_spec c' (m_cols m)); [|lia]. cbn [andb].
  rewrite replace_nth_error by (rewrite S; apply index_bound; assumption).
  destruct (Nat.eqb_spec (r' * m_cols m + c') (r * m_cols m + c)) as [E|E].
  - apply index_inj in E as [-> ->]; try assumption. rewrite !Nat.eqb_refl. reflexivity.
  - destruct (Nat.eqb_spec r' r) as [->|]; [|reflexivity]. destruct (Nat.eqb_spec c' c) as [->|]; [congruence|reflexivity].
Qed.
Lemma mat_new_sized {A} (v : A) r c : sized (mat_new v r c).
Proof. unfold sized, mat_new. cbn. apply repeat_length. Qed.

(** filling a matrix element by element *)
Definition before (r c r' c' : nat) : bool := Nat.ltb r' r || (Nat.eqb r' r && Nat.ltb c' c).
Lemma fill_matrix {A} (h : nat -> nat -> A) (nr nc : nat) (zero : A) (g : nat -> nat -> outcome A) :
  (forall r c, r < nr -> c < nc -> g r c = Ret (h r c)) ->
  exists m, for_range 0 nr (fun r m => for_range 0 nc (fun c m => run v <- g r c ;; ret_opt (mat_set m r c v)) m) (mat_new zero nr nc) = Ret m /\
    sized m /\ m_rows m = nr /\ m_cols m = nc /\ forall r c, r < nr -> c < nc -> mat_get m r c = Some (h r c).
Proof.
  intros Hg.
  set (P := fun i (m : GMatrix A) => sized m /\ m_rows m = nr /\ m_cols m = nc /\
         forall r c, r < i -> r < nr -> c < nc -> mat_get m r c = Some (h r c)).
  destruct (for_range_inv P nr 0 (fun r m => for_range 0 nc (fun c m => run v <- g r c ;; ret_opt (mat_set m r c v)) m) (mat_new zero nr nc)) as (m & E & S & Hr & Hc & H).
  - split; [apply mat_new_sized|]. split; [reflexivity|]. split; [reflexivity|]. intros; lia.
  - intros i m Hi (S & Rr & Rc & H).
    set (Q := fun j (m : GMatrix A) => sized m /\ m_rows m = nr /\ m_cols m = nc /\
         forall r c, (r < i \/ (r = i /\ c < j)) -> r < nr -> c < nc -> mat_get m r c = Some (h r c)).
    destruct (for_range_inv Q nc 0 (fun c m => run v <- g i c ;; ret_opt (mat_set m i c v)) m) as (m' & E' & S' & Rr' & Rc' & H').
    + split; [exact S|]. split; [exact Rr|]. split; [exact Rc|]. intros r c [L|[_ L]] Hr Hc; [apply H; assumption|lia].
    + intros j m1 Hj (S1 & Rr1 & Rc1 & H1). rewrite Hg by lia. cbn [obind].
      destruct (mat_set_some m1 i j (h i j) S1) as (m2 & E2 & S2 & Rr2 & Rc2 & H2); [lia|lia|].
      rewrite E2. cbn [ret_opt]. exists m2. split; [reflexivity|]. split; [exact S2|]. split; [lia|]. split; [lia|].
      intros r c L Hr Hc. rewrite H2 by lia.
      destruct (Nat.eqb_spec r i) as [->|]; cbn [andb]; [destruct (Nat.eqb_spec c j) as [->|]; [reflexivity|]|]; apply H1; lia.
    + exists m'. split; [exact E'|]. split; [exact S'|]. split; [exact Rr'|]. split; [exact Rc'|].
      intros r c L Hr Hc. apply H'; lia.
  - exists m. split; [exact E|]. split; [exact S|]. split; [exact Hr|]. split; [exact Hc|]. intros. apply H; lia.
Qed.

(** a sized matrix is made of rows *)
Lemma rows_exist {A} n c (l : list A) : length l = n * c -> exists rows, length rows = n /\ rectangular c rows /\ l = concat rows.
Proof.
  revert l. induction n as [|n IH]; intros l H.
  - exists []. destruct l; [|discriminate]. repeat split. constructor.
  - destruct (IH (skipn c l)) as (rows & L & R & E); [rewrite skipn_length; nia|].
    exists (firstn c l :: rows). cbn. split; [lia|]. split; [constructor; [rewrite firstn_length; nia|exact R]|].
    rewrite <- E. symmetry. apply firstn_skipn.
Qed.
Lemma sized_rows {A} (m : GMatrix A) : sized m -> exists rows, rectangular (m_cols m) rows /\ m = of_rows (m_cols m) rows.
Proof.
  intros S. destruct (rows_exist _ _ _ S) as (rows & L & R & E). exists rows. split; [exact R|].
  unfold of_rows. rewrite L, <- E. destruct m; reflexivity.
Qed.
Lemma concat_length {A} c (rows : list (list A)) : rectangular c rows -> length (concat rows) = length rows * c.
Proof. induction 1 as [|r rows H _ IH]; [reflexivity|]. cbn. rewrite app_length, IH, H. reflexivity. Qed.
Lemma of_rows_sized {A} c (rows : list (list A)) : rectangular c rows -> sized (of_rows c rows).
Proof. intros H. unfold sized. cbn. apply concat_length. exact H. Qed.
Lemma concat_nth {A} nc (rows : list (list A)) r c : rectangular nc rows -> c < nc ->
  nth_error (concat rows) (r * nc + c) = match nth_error rows r with Some row => nth_error row c | None => None end.
Proof.
  intros H Hc. revert r. induction H as [|row rows H _ IH]; intros r.
  - cbn. destruct (r * nc + c), r; reflexivity.
  - destruct r as [|r]; cbn [concat nth_error].
    + rewrite nth_error_app1 by lia. reflexivity.
    + rewrite nth_error_app2 by lia. replace (S r * nc + c - length row) with (r * nc + c) by lia. apply IH.
Qed.
Lemma of_rows_get {A} nc (rows : list (list A)) r c : rectangular nc rows -> r < length rows -> c < nc ->
  mat_get (of_rows nc rows) r c = match nth_error rows r with Some row => nth_error row c | None => None end.
Proof.
  intros R Hr Hc. unfold mat_get, of_rows. cbn [m_rows m_cols m_data].
  destruct (Nat.ltb_spec r (length rows)); [|lia]. destruct (Nat.ltb_spec c nc); [|lia]. apply concat_nth; assumption.
Qed.

(** ** writing *)
Definition row_text {A} (show : A -> bytes) (row : list A) : bytes := concat (map (fun v => show v ++ [TAB]) row).
Lemma map_seq_nth {A B} (d : A) (f : A -> B) (l : list A) (g : nat -> B) s :
  (forall i x, nth_error l i = Some x -> g (s + i) = f x) -> map g (seq s (length l)) = map f l.
Proof.
  revert s. induction l as [|x l IH]; intros s H; [reflexivity|]. cbn. f_equal.
  - rewrite <- (H 0 x eq_refl). f_equal. lia.
  - apply IH. intros i y Hy. rewrite <- (H (S i) y Hy). f_equal. lia.
Qed.
Lemma matrix_body_text {A} (show : A -> bytes) nc (rows : list (list A)) : rectangular nc rows ->
  matrix_body show (of_rows nc rows) = Ret (text_of (map (row_text show) rows)).
Proof.
  intros R. unfold matrix_body. cbn [of_rows m_rows m_cols].
  set (f := fun r => match nth_error rows r with Some row => row_text show row ++ [NL] | None => [] end).
  rewrite (for_range_app f).
  - cbn [app]. f_equal. unfold text_of. rewrite map_map. f_equal.
    apply (map_seq_nth ([] : list A)). intros i row Hi. cbn. unfold f. rewrite Hi. reflexivity.
  - intros r out Hr. destruct (nth_error rows r) as [row|] eqn:Er; [|apply nth_error_None in Er; lia].
    assert (Lr : length row = nc).
    { unfold rectangular in R. rewrite Forall_forall in R. apply R. eapply nth_error_In. exact Er. }
    set (h := fun c => match nth_error row c with Some v => show v ++ [TAB] | None => [] end).
    rewrite (for_range_app h).
    + cbn [obind]. unfold f. rewrite Er. rewrite <- app_assoc. do 4 f_equal. unfold row_text. f_equal. rewrite <- Lr.
      destruct row as [|d row]; [reflexivity|]. apply (map_seq_nth d). intros i v Hi. cbn [Nat.add]. unfold h. rewrite Hi. reflexivity.
    + intros c out' Hc. pose proof (of_rows_get nc rows r c R ltac:(lia) ltac:(lia)) as G. rewrite G, Er.
      unfold h. destruct (nth_error row c) as [v|] eqn:Ec; [reflexivity|]. apply nth_error_None in Ec. lia.
Qed.

(** ** lines of a text *)
Lemma split_text ls : Forall one_line ls -> split_on (beqb NL) (text_of ls) = ls ++ [[]].
Proof.
  induction 1 as [|l ls H _ IH]; [reflexivity|]. unfold text_of in *. cbn [map concat]. rewrite <- app_assoc. cbn [app].
  rewrite split_on_sep; [rewrite IH; reflexivity| |reflexivity].
  apply one_line_forall in H. eapply Forall_impl; [|exact H]. intros c Hc. destruct (beqb NL c) eqn:E; [|reflexivity].
  apply beqb_eq in E. congruence.
Qed.
Lemma strip_cr_none l : ~ In CR l -> strip_cr l = l.
Proof.
  induction l as [|c l IH]; intros H; [reflexivity|]. cbn [strip_cr]. destruct l as [|d l].
  - destruct (beqb c CR) eqn:E; [|reflexivity]. apply beqb_eq in E. subst. exfalso. apply H. left. reflexivity.
  - rewrite IH; [reflexivity|]. intros Q. apply H. right. exact Q.
Qed.
Lemma lines_text ls : Forall one_line ls -> Forall (fun l => ~ In CR l) ls -> lines (text_of ls) = ls.
Proof.
  intros H1 H2. unfold lines. rewrite split_text by exact H1. induction H2 as [|l ls Hc H2 IH]; [reflexivity|].
  inversion H1 as [|? ? H3 H4]; subst. specialize (IH H4). cbn [app lines_of]. rewrite strip_cr_none by exact Hc. rewrite IH.
  clear. destruct ls; reflexivity.
Qed.
Lemma text_app a b : text_of (a ++ b) = text_of a ++ text_of b.
Proof. unfold text_of. rewrite map_app, concat_app. reflexivity. Qed.

Lemma split_ws_word w c l : w <> [] -> word w -> is_ws c = true -> split_ws (w ++ c :: l) = w :: split_ws l.
Proof.
  intros NE W Hc. unfold split_ws. rewrite split_on_sep by assumption. cbn [filter]. destruct w; [contradiction|]. reflexivity.
Qed.
Lemma split_ws_nil : split_ws [] = []. Proof. reflexivity. Qed.

(** ** reading the header *)
Lemma number_field_spec l n : number_field l = Some n <-> says l n.
Proof.
  unfold number_field, says. split.
  - destruct (split_on (beqb "="%char) l) as [|a [|b [|c ws]]] eqn:Es; try discriminate. intros P.
    apply split_on_inv in Es as [Fa (c & l' & Hc & -> & Es)]. apply beqb_eq in Hc. subst c.
    apply split_on_inv in Es as [Fb ->]. exists a, b. rewrite <- !eq_not. auto.
  - intros (k & v & -> & Hk & Hv & P). apply eq_not in Hk, Hv.
    rewrite split_on_sep by (try exact Hk; reflexivity). rewrite split_on_none by exact Hv. exact P.
Qed.
Lemma blank_bool line : (match line with [] => true | c :: _ => is_ws c end) = false <-> header_line line.
Proof.
  unfold header_line. destruct line as [|c l].
  - split; [discriminate|intros (c & r & E & _); discriminate].
  - split; [intros H; exists c, l; auto|intros (c' & r & E & H); injection E as -> ->; exact H].
Qed.
Lemma blank_bool_true line : (match line with [] => true | c :: _ => is_ws c end) = true <-> blank_line line.
Proof.
  unfold blank_line. rewrite <- blank_bool. destruct line as [|c l]; [split; [discriminate|reflexivity]|].
  destruct (is_ws c); split; intros; congruence.
Qed.

(** the latest value of a key, or the one known before *)
Definition latest (key : bytes) (header : list bytes) (old new : option nat) : Prop :=
  (Forall (fun l => ~ begins l key) header /\ new = old) \/ exists n, new = Some n /\ last_says key header n.
Definition fields_ok (k : nat) (l : bytes) : Prop :=
  (begins l (lit "NROWS") -> exists n, says l n) /\ (begins l (lit "NCOLS") -> exists n, says l n) /\ (begins l (lit "NCOMP") -> says l k).

Lemma keys_apart l : ~ (begins l (lit "NROWS") /\ begins l (lit "NCOLS")) /\ ~ (begins l (lit "NROWS") /\ begins l (lit "NCOMP")) /\
  ~ (begins l (lit "NCOLS") /\ begins l (lit "NCOMP")).
Proof. repeat split; intros [[r ->] [r' E]]; discriminate. Qed.
Lemma latest_skip key l header old new : ~ begins l key -> latest key header old new -> latest key (l :: header) old new.
Proof.
  intros H [[F ->]|(n & -> & b & x & a & -> & R)]; [left; split; [constructor; assumption|reflexivity]|].
  right. exists n. split; [reflexivity|]. exists (l :: b), x, a. split; [reflexivity|exact R].
Qed.
Lemma latest_here key l header n new old : begins l key -> says l n -> latest key header (Some n) new -> latest key (l :: header) old new.
Proof.
  intros H S [[F ->]|(n' & -> & b & x & a & -> & R)]; right.
  - exists n. split; [reflexivity|]. exists [], l, header. auto.
  - exists n'. split; [reflexivity|]. exists (l :: b), x, a. split; [reflexivity|exact R].
Qed.
Lemma says_inj l n m : says l n -> says l m -> n = m.
Proof. rewrite <- !number_field_spec. congruence. Qed.
Lemma latest_unskip key l header old new : ~ begins l key -> latest key (l :: header) old new -> latest key header old new.
Proof.
  intros H [[F ->]|(n & -> & b & x & a & E & B & S & R)]; [left; split; [inversion F; assumption|reflexivity]|].
  right. exists n. split; [reflexivity|]. destruct b as [|y b]; injection E as -> ->; [contradiction|]. exists b, x, a. auto.
Qed.
Lemma latest_unhere key l header n old new : begins l key -> says l n -> latest key (l :: header) old new -> latest key header (Some n) new.
Proof.
  intros H S [[F ->]|(n' & -> & b & x & a & E & B & S' & R)]; [inversion F; contradiction|].
  destruct b as [|y b]; injection E as -> ->.
  - left. split; [exact R|]. f_equal. eapply says_inj; eassumption.
  - right. exists n'. split; [reflexivity|]. exists b, x, a. auto.
Qed.

Lemma header_loop_some k ls : forall nr nc h nr' nc' h', matrix_header_loop k ls nr nc h = Some ((nr', nc'), h') ->
  exists header body, file_parts ls header body /\ skipn h' (repeat [] h ++ ls) = body /\ Forall header_line header /\ Forall (fields_ok k) header /\
    latest (lit "NROWS") header nr nr' /\ latest (lit "NCOLS") header nc nc'.
Proof.
  induction ls as [|l ls IH]; intros nr nc h nr' nc' h'; cbn [matrix_header_loop].
  - intros E. injection E as <- <- <-. exists [], []. split; [left; auto|]. rewrite app_nil_r, skipn_all2 by (rewrite repeat_length; lia).
    split; [reflexivity|]. split; [constructor|]. split; [constructor|]. split; left; split; auto.
  - destruct (match l with [] => true | c :: _ => is_ws c end) eqn:Bl.
    + intros E. injection E as <- <- <-. apply blank_bool_true in Bl. exists [], ls. split; [right; exists l; auto|].
      split. { rewrite skipn_app, repeat_length, skipn_all2 by (rewrite repeat_length; lia). replace (S h - h) with 1 by lia. reflexivity. }
      split; [constructor|]. split; [constructor|]. split; left; split; auto.
    + apply blank_bool in Bl. destruct (keys_apart l) as (A1 & A2 & A3).
      assert (SK : forall h', skipn h' (repeat [] (S h) ++ ls) = skipn h' (repeat [] h ++ [] :: ls) ).
      { intros q. cbn [repeat]. f_equal. replace ([] :: repeat [] h : list bytes) with (repeat ([] : bytes) h ++ [[]]); [rewrite <- app_assoc; reflexivity|].
        change [[]] with (repeat ([] : bytes) 1) at 1. rewrite <- repeat_app. rewrite Nat.add_comm. reflexivity. }
      assert (GO : forall nr1 nc1, matrix_header_loop k ls nr1 nc1 (S h) = Some (nr', nc', h') -> fields_ok k l ->
        (forall header, latest (lit "NROWS") header nr1 nr' -> latest (lit "NROWS") (l :: header) nr nr') ->
        (forall header, latest (lit "NCOLS") header nc1 nc' -> latest (lit "NCOLS") (l :: header) nc nc') ->
        exists header body, file_parts (l :: ls) header body /\ skipn h' (repeat [] h ++ l :: ls) = body /\ Forall header_line header /\
          Forall (fields_ok k) header /\ latest (lit "NROWS") header nr nr' /\ latest (lit "NCOLS") header nc nc').
      { intros nr1 nc1 E FO L1 L2. 
        assert (Hh : S h <= h').
        { clear -E. revert E. generalize (S h). revert nr1 nc1. induction ls as [|x xs IHx]; intros nr1 nc1 q; cbn [matrix_header_loop].
          - intros E. injection E as _ _ <-. lia.
          - repeat match goal with |- context [if ?b then _ else _] => destruct b end; try (intros E; injection E as _ _ <-; lia);
              try destruct (number_field x); try discriminate; try (repeat match goal with |- context [if ?b then _ else _] => destruct b end; try discriminate);
              intros E; apply IHx in E; lia. }
        apply IH in E as (header & body & FP & SB & HL & FK & R1 & R2). exists (l :: header), body. split.
        { destruct FP as [[-> ->]|(b & Hb & ->)]; [left; auto|right; exists b; split; [exact Hb|reflexivity]]. }
        split.
        { rewrite <- SB. rewrite SK. rewrite !skipn_app, !repeat_length, !skipn_all2 by (rewrite repeat_length; lia).
          destruct (h' - h) as [|d] eqn:D; [lia|reflexivity]. }
        split; [constructor; assumption|]. split; [constructor; assumption|]. auto. }
      destruct (starts_with l (lit "NROWS")) eqn:B1.
      { apply begins_spec in B1. destruct (number_field l) as [n|] eqn:NF; [|discriminate]. apply number_field_spec in NF.
        intros E. apply (GO _ _ E).
        - split; [intros _; eauto|]. split; intros Q; exfalso; tauto.
        - intros header. apply latest_here; assumption.
        - intros header. apply latest_skip. tauto. }
      apply not_begins in B1. destruct (starts_with l (lit "NCOLS")) eqn:B2.
      { apply begins_spec in B2. destruct (number_field l) as [n|] eqn:NF; [|discriminate]. apply number_field_spec in NF.
        intros E. apply (GO _ _ E).
        - split; [intros Q; exfalso; tauto|]. split; [intros _; eauto|]. intros Q; exfalso; tauto.
        - intros header. apply latest_skip. tauto.
        - intros header. apply latest_here; assumption. }
      apply not_begins in B2. destruct (starts_with l (lit "NCOMP")) eqn:B3.
      { apply begins_spec in B3. destruct (number_field l) as [n|] eqn:NF; [|discriminate]. apply number_field_spec in NF.
        destruct (Nat.eqb_spec n k) as [->|]; [|discriminate]. cbn [negb]. intros E. apply (GO _ _ E).
        - split; [intros Q; exfalso; tauto|]. split; [intros Q; exfalso; tauto|]. auto.
        - intros header. apply latest_skip. tauto.
        - intros header. apply latest_skip. tauto. }
      apply not_begins in B3. intros E. apply (GO _ _ E).
      * split; [intros Q; exfalso; tauto|]. split; intros Q; exfalso; tauto.
      * intros header. apply latest_skip. tauto.
      * intros header. apply latest_skip. tauto.
Qed.

Lemma header_loop_runs k header : forall body ls nr nc h nr' nc', file_parts ls header body -> Forall header_line header -> Forall (fields_ok k) header ->
  latest (lit "NROWS") header nr nr' -> latest (lit "NCOLS") header nc nc' ->
  exists h', matrix_header_loop k ls nr nc h = Some ((nr', nc'), h') /\ h <= h' /\ skipn (h' - h) ls = body.
Proof.
  induction header as [|l header IH]; intros body ls nr nc h nr' nc' FP HL FK L1 L2.
  - assert (nr' = nr) by (destruct L1 as [[_ E]|(n & _ & b & x & a & E & _)]; [exact E|destruct b; discriminate]).
    assert (nc' = nc) by (destruct L2 as [[_ E]|(n & _ & b & x & a & E & _)]; [exact E|destruct b; discriminate]). subst.
    destruct FP as [[-> ->]|(b & Hb & ->)]; cbn [app matrix_header_loop].
    + exists h. split; [reflexivity|]. split; [lia|]. apply skipn_nil.
    + apply blank_bool_true in Hb. rewrite Hb. exists (S h). split; [reflexivity|]. split; [lia|]. replace (S h - h) with 1 by lia. reflexivity.
  - inversion HL as [|? ? Hl HL']; inversion FK as [|? ? Hf FK']; subst.
    assert (E : exists ls', ls = l :: ls' /\ file_parts ls' header body).
    { destruct FP as [[-> ->]|(b & Hb & ->)]; [exists header; split; [reflexivity|left; auto]|]. exists (header ++ b :: body). split; [reflexivity|]. right. eauto. }
    destruct E as (ls' & -> & FP'). cbn [matrix_header_loop]. pose proof Hl as Hl'. apply blank_bool in Hl'. rewrite Hl'.
    destruct (keys_apart l) as (A1 & A2 & A3). destruct Hf as (F1 & F2 & F3).
    assert (GO : forall nr1 nc1, latest (lit "NROWS") header nr1 nr' -> latest (lit "NCOLS") header nc1 nc' ->
      exists h', matrix_header_loop k ls' nr1 nc1 (S h) = Some ((nr', nc'), h') /\ h <= h' /\ skipn (h' - h) (l :: ls') = body).
    { intros nr1 nc1 R1 R2. destruct (IH body ls' nr1 nc1 (S h) nr' nc' FP' HL' FK' R1 R2) as (h' & E & Hh & Q).
      exists h'. split; [exact E|]. split; [lia|]. replace (h' - h) with (S (h' - S h)) by lia. exact Q. }
    destruct (starts_with l (lit "NROWS")) eqn:B1.
    { apply begins_spec in B1. destruct (F1 B1) as [n Hn]. pose proof Hn as Hn'. apply number_field_spec in Hn'. rewrite Hn'.
      apply GO; [eapply latest_unhere; eassumption|eapply latest_unskip; [|eassumption]; tauto]. }
    apply not_begins in B1. destruct (starts_with l (lit "NCOLS")) eqn:B2.
    { apply begins_spec in B2. destruct (F2 B2) as [n Hn]. pose proof Hn as Hn'. apply number_field_spec in Hn'. rewrite Hn'.
      apply GO; [eapply latest_unskip; [|eassumption]; tauto|eapply latest_unhere; eassumption]. }
    apply not_begins in B2. destruct (starts_with l (lit "NCOMP")) eqn:B3.
    { apply begins_spec in B3. pose proof (F3 B3) as Hn'. apply number_field_spec in Hn'. rewrite Hn', Nat.eqb_refl. cbn [negb].
      apply GO; eapply latest_unskip; try eassumption; tauto. }
    apply GO; eapply latest_unskip; try eassumption; tauto.
Qed.

(** ** reading the rows *)
Fixpoint parse_elems {A} (k : nat) (elem : list bytes -> option A) (todo : nat) (values : list bytes) : option (list A) :=
  match todo with
  | O => Some []
  | S todo => match elem (firstn k values) with None => None | Some v =>
              match parse_elems k elem todo (skipn k values) with None => None | Some vs => Some (v :: vs) end end
  end.
Lemma parse_elems_length {A} k (elem : list bytes -> option A) n : forall values vs, parse_elems k elem n values = Some vs -> length vs = n.
Proof.
  induction n as [|n IH]; intros values vs; cbn [parse_elems]; [intros E; injection E as <-; reflexivity|].
  destruct (elem _); [|discriminate]. destruct (parse_elems _ _ _ _) eqn:E; [|discriminate]. intros Q. injection Q as <-. cbn. f_equal. eapply IH. exact E.
Qed.
Lemma parse_elems_spec {A} k (elem : list bytes -> option A) n : forall values vs, length values = k * n ->
  (parse_elems k elem n values = Some vs <->
   exists groups, values = concat groups /\ Forall (fun g => length g = k) groups /\ length groups = n /\ Forall2 (fun g v => elem g = Some v) groups vs).
Proof.
  induction n as [|n IH]; intros values vs L; cbn [parse_elems].
  - split.
    + intros E. injection E as <-. exists []. destruct values; [|cbn in L; lia]. repeat split; constructor.
    + intros (groups & -> & _ & Lg & F). destruct groups; [|discriminate]. inversion F. reflexivity.
  - split.
    + destruct (elem (firstn k values)) as [v|] eqn:E1; [|discriminate]. destruct (parse_elems k elem n (skipn k values)) as [vs'|] eqn:E2; [|discriminate].
      intros E. injection E as <-. apply IH in E2 as (groups & Eg & F & Lg & F2); [|rewrite skipn_length; nia].
      exists (firstn k values :: groups). cbn [concat length]. split; [rewrite <- Eg; symmetry; apply firstn_skipn|].
      split; [constructor; [rewrite firstn_length; nia|exact F]|]. split; [lia|]. constructor; assumption.
    + intros (groups & -> & F & Lg & F2). destruct groups as [|g groups]; [discriminate|]. inversion F; subst. inversion F2; subst.
      cbn [concat]. rewrite firstn_app, firstn_all2, Nat.sub_diag by lia. cbn [firstn]. rewrite app_nil_r.
      match goal with H : elem g = _ |- _ => rewrite H end.
      rewrite skipn_app, skipn_all2, Nat.sub_diag by lia. cbn [skipn app].
      cbn [concat] in L. rewrite app_length in L.
      match goal with H : Forall2 _ groups ?l |- _ => destruct (IH (concat groups) l) as [_ Q]; [nia|rewrite Q; [reflexivity|]] end.
      exists groups. cbn in Lg. repeat split; auto; lia.
Qed.

Lemma read_row_in {A} k (elem : list bytes -> option A) nrow nr nc : nrow < nr -> forall todo ncol values a b,
  length a = nrow * nc + ncol -> todo <= length b -> ncol + todo <= nc ->
  read_row k elem todo nrow ncol values (mkMat nr nc (a ++ b)) =
  Ret (match parse_elems k elem todo values with None => None | Some vs => Some (mkMat nr nc (a ++ vs ++ skipn todo b)) end).
Proof.
  intros Hr. induction todo as [|todo IH]; intros ncol values a b La Lb Hc; cbn [read_row parse_elems]; [reflexivity|].
  destruct (elem (firstn k values)) as [v|]; [|reflexivity].
  unfold mat_set. cbn [m_rows m_cols m_data]. destruct (Nat.ltb_spec nrow nr); [|lia]. destruct (Nat.ltb_spec ncol nc); [|lia]. cbn [andb].
  destruct b as [|x b]; [cbn in Lb; lia|]. rewrite <- La, replace_app.
  replace (a ++ v :: b) with ((a ++ [v]) ++ b) by (rewrite <- app_assoc; reflexivity).
  rewrite IH; [|rewrite app_length; cbn; lia|cbn in Lb; lia|lia].
  destruct (parse_elems k elem todo (skipn k values)); [|reflexivity]. cbn [skipn]. rewrite <- !app_assoc. reflexivity.
Qed.
Lemma read_row_zero {A} k (elem : list bytes -> option A) nrow ncol values m : read_row k elem 0 nrow ncol values m = Ret (Some m).
Proof. reflexivity. Qed.
Lemma read_row_out {A} k (elem : list bytes -> option A) nrow todo ncol values (m : GMatrix A) : m_rows m <= nrow ->
  read_row k elem (S todo) nrow ncol values m = match elem (firstn k values) with None => Ret None | Some _ => Crash end.
Proof.
  intros H. cbn [read_row]. destruct (elem _); [|reflexivity]. unfold mat_set. destruct (Nat.ltb_spec nrow (m_rows m)); [lia|]. reflexivity.
Qed.

Definition parse_line {A} k (elem : list bytes -> option A) nc (line : bytes) : option (list A) :=
  if Nat.eqb (length (split_ws line)) (k * nc) then parse_elems k elem nc (split_ws line) else None.
Fixpoint parse_lines {A} k (elem : list bytes -> option A) nc (ls : list bytes) : option (list (list A)) :=
  match ls with
  | [] => Some []
  | l :: ls => match parse_line k elem nc l with None => None | Some r =>
               match parse_lines k elem nc ls with None => None | Some rs => Some (r :: rs) end end
  end.
Lemma parse_line_spec {A} k (elem : list bytes -> option A) nc line row : parse_line k elem nc line = Some row <-> row_says k elem nc line row.
Proof.
  unfold parse_line, row_says. destruct (Nat.eqb_spec (length (split_ws line)) (k * nc)) as [L|L].
  - apply parse_elems_spec. exact L.
  - split; [discriminate|]. intros (groups & E & F & Lg & _). exfalso. apply L. rewrite E.
    assert (R : rectangular k groups) by exact F. rewrite (concat_length k groups R). lia.
Qed.
Lemma parse_lines_spec {A} k (elem : list bytes -> option A) nc ls : forall rows, parse_lines k elem nc ls = Some rows <-> Forall2 (row_says k elem nc) ls rows.
Proof.
  induction ls as [|l ls IH]; intros rows; cbn [parse_lines].
  - split; [intros E; injection E as <-; constructor|intros F; inversion F; reflexivity].
  - split.
    + destruct (parse_line k elem nc l) as [r|] eqn:E; [|discriminate]. destruct (parse_lines k elem nc ls) as [rs|]; [|discriminate].
      intros Q. injection Q as <-. constructor; [apply parse_line_spec; exact E|apply IH; reflexivity].
    + intros F. inversion F as [|? r ? rs H1 H2]; subst. apply parse_line_spec in H1. apply IH in H2. rewrite H1, H2. reflexivity.
Qed.
Lemma row_says_length {A} k (elem : list bytes -> option A) nc line row : row_says k elem nc line row -> length row = nc.
Proof. intros (g & _ & _ & L & F). rewrite <- L. symmetry. exact (Forall2_length F). Qed.

Lemma skipn_skipn' {A} a b (l : list A) : skipn a (skipn b l) = skipn (b + a) l.
Proof. revert l. induction b as [|b IH]; intros l; [reflexivity|]. destruct l; cbn; [apply skipn_nil|apply IH]. Qed.
Lemma read_rows_in {A} k (elem : list bytes -> option A) nr nc ls : forall nrow a b, (nrow + length ls <= nr \/ nc = 0) ->
  length a = nrow * nc -> length ls * nc <= length b ->
  read_rows k elem nrow ls (mkMat nr nc (a ++ b)) =
  Ret (match parse_lines k elem nc ls with None => None | Some rs => Some (mkMat nr nc (a ++ concat rs ++ skipn (length ls * nc) b)) end).
Proof.
  induction ls as [|l ls IH]; intros nrow a b Hn La Lb; cbn [read_rows parse_lines]; [reflexivity|].
  cbn [m_cols]. unfold parse_line. destruct (Nat.eqb_spec (length (split_ws l)) (k * nc)) as [L|L]; cbn [negb]; [|reflexivity].
  cbn [length] in Hn, Lb.
  destruct (Nat.eq_dec nc 0) as [->|Enc].
  - cbn [read_row obind parse_elems].
    rewrite IH; [|right; reflexivity|lia|lia]. destruct (parse_lines k elem 0 ls); [|reflexivity].
    cbn [concat app]. rewrite !Nat.mul_0_r. reflexivity.
  - rewrite read_row_in; [|lia|lia|nia|lia].
    cbn [obind]. destruct (parse_elems k elem nc (split_ws l)) as [vs|] eqn:E; [|reflexivity].
    pose proof (parse_elems_length _ _ _ _ _ E) as Lv.
    rewrite app_assoc. rewrite IH; [|lia|rewrite app_length; nia|rewrite skipn_length; nia].
    destruct (parse_lines k elem nc ls); [|reflexivity]. cbn [concat length]. rewrite <- !app_assoc. do 6 f_equal.
    rewrite skipn_skipn'. f_equal.
Qed.

(** ** the whole file *)
Lemma fields_ok_split k header : Forall (fields_ok k) header <->
  (Forall (fun l => begins l (lit "NROWS") -> exists n, says l n) header /\
  Forall (fun l => begins l (lit "NCOLS") -> exists n, says l n) header /\
  Forall (fun l => begins l (lit "NCOMP") -> says l k) header).
Proof.
  unfold fields_ok. rewrite !Forall_forall. split.
  - intros H. repeat split; intros l Hl; apply (H l Hl).
  - intros (H1 & H2 & H3) l Hl. auto.
Qed.
Lemma latest_none key header n : latest key header None (Some n) <-> last_says key header n.
Proof.
  split; [intros [[_ E]|(m & E & H)]; [discriminate|injection E as ->; exact H]|]. intros H. right. eauto.
Qed.
Lemma file_header {A} k (zero : A) elem content : utf8 content = true ->
  forall header body nr nc, file_parts (lines content) header body -> header_says k header nr nc ->
  read_any k zero elem content = read_rows k elem 0 body (mat_new zero nr nc).
Proof.
  intros U header body nr nc FP (HL & H1 & H2 & H3 & L1 & L2). unfold read_any. rewrite U. cbn [negb].
  destruct (header_loop_runs k header body (lines content) None None 0 (Some nr) (Some nc) FP HL) as (h' & E & _ & S);
    [apply fields_ok_split; auto|apply latest_none; exact L1|apply latest_none; exact L2|].
  rewrite E. rewrite Nat.sub_0_r in S. rewrite S. reflexivity.
Qed.
Lemma file_header_inv {A} k (zero : A) elem content r : read_any k zero elem content = r -> r <> Ret None ->
  utf8 content = true /\ exists header body nr nc, file_parts (lines content) header body /\ header_says k header nr nc /\
    r = read_rows k elem 0 body (mat_new zero nr nc).
Proof.
  unfold read_any. destruct (utf8 content); cbn [negb]; [|intros <- H; contradiction].
  destruct (matrix_header_loop k (lines content) None None 0) as [[[[nr|] [nc|]] h]|] eqn:E; try (intros <- H; contradiction).
  intros <- _. split; [reflexivity|]. apply header_loop_some in E as (header & body & FP & SB & HL & FK & L1 & L2).
  cbn [repeat app] in SB. exists header, body, nr, nc. split; [exact FP|]. split.
  - apply fields_ok_split in FK as (F1 & F2 & F3). split; [exact HL|]. repeat (split; [assumption|]). split; apply latest_none; assumption.
  - exact (f_equal (fun b => read_rows k elem 0 b _) SB).
Qed.
(** what reading the rows does, in full: [None] an error, crash when there is a row too many *)
Lemma read_rows_new {A} k (elem : list bytes -> option A) nr nc body zero : (length body <= nr \/ nc = 0) ->
  read_rows k elem 0 body (mat_new zero nr nc) =
  Ret (match parse_lines k elem nc body with None => None | Some rs => Some (mkMat nr nc (concat rs ++ repeat zero ((nr - length rs) * nc))) end).
Proof.
  intros H. unfold mat_new. change (repeat zero (nr * nc)) with ([] ++ repeat zero (nr * nc)).
  rewrite read_rows_in; [|cbn; tauto|reflexivity|rewrite repeat_length; destruct H; [nia|subst; lia]].
  destruct (parse_lines k elem nc body) as [rs|] eqn:E; [|reflexivity]. do 3 f_equal. cbn [app]. f_equal.
  apply parse_lines_spec in E. apply Forall2_length in E. rewrite <- E.
  assert (Q : forall n m, skipn n (repeat zero (n + m)) = repeat zero m).
  { induction n; intros; [reflexivity|]. cbn. apply IHn. }
  destruct H as [H| ->]; [|rewrite !Nat.mul_0_r; reflexivity].
  replace (nr * nc) with (length body * nc + (nr - length body) * nc) by nia. apply Q.
Qed.
Lemma read_rows_too_many {A} k (elem : list bytes -> option A) nr nc extra : 0 < nc -> forall body nrow a b, nrow + length body = nr ->
  length a = nrow * nc -> length body * nc = length b ->
  read_rows k elem nrow (body ++ extra) (mkMat nr nc (a ++ b)) =
  match parse_lines k elem nc body with
  | None => Ret None
  | Some rs => match extra with
               | [] => Ret (Some (mkMat nr nc (a ++ concat rs)))
               | l :: _ => if negb (Nat.eqb (length (split_ws l)) (k * nc)) then Ret None
                           else match elem (firstn k (split_ws l)) with None => Ret None | Some _ => Crash end
               end
  end.
Proof.
  intros Hc. induction body as [|l body IH]; intros nrow a b Hn La Lb; cbn [app].
  - cbn [parse_lines concat]. destruct b; [|discriminate]. rewrite !app_nil_r. destruct extra as [|l ls]; [reflexivity|]. cbn [read_rows m_cols].
    destruct (negb _); [reflexivity|]. destruct nc as [|nc]; [lia|]. rewrite read_row_out by (cbn in *; lia).
    destruct (elem _); reflexivity.
  - cbn [read_rows parse_lines m_cols]. unfold parse_line. cbn [length] in Hn, Lb.
    destruct (Nat.eqb_spec (length (split_ws l)) (k * nc)) as [L|L]; cbn [negb]; [|reflexivity].
    rewrite read_row_in; [|lia|lia|nia|lia]. cbn [obind].
    destruct (parse_elems k elem nc (split_ws l)) as [vs|] eqn:E; [|reflexivity]. pose proof (parse_elems_length _ _ _ _ _ E) as Lv.
    rewrite app_assoc. rewrite IH; [|lia|rewrite app_length; nia|rewrite skipn_length; nia].
    destruct (parse_lines k elem nc body) as [rs|]; [|reflexivity]. cbn [concat]. rewrite <- !app_assoc. reflexivity.
Qed.

Lemma read_any_some {A} k (zero : A) elem content m : read_any k zero elem content = Ret (Some m) <->
  utf8 content = true /\ exists header body nr nc rows, file_parts (lines content) header body /\ header_says k header nr nc /\
    Forall2 (row_says k elem nc) body rows /\ (length rows <= nr \/ nc = 0) /\
    m = mkMat nr nc (concat rows ++ repeat zero ((nr - length rows) * nc)).
Proof.
  split.
  - intros E. destruct (file_header_inv k zero elem content _ E) as (U & header & body & nr & nc & FP & HS & ER); [discriminate|].
    split; [exact U|]. exists header, body, nr, nc.
    destruct (Nat.le_gt_cases (length body) nr) as [L|L]; [|destruct (Nat.eq_dec nc 0) as [Z|Z]].
    + rewrite read_rows_new in ER by auto. destruct (parse_lines k elem nc body) as [rs|] eqn:EP; [|discriminate].
      injection ER as ->. apply parse_lines_spec in EP. exists rs. pose proof (Forall2_length EP). repeat split; auto; try apply FP; try apply HS. left. lia.
    + rewrite read_rows_new in ER by auto. destruct (parse_lines k elem nc body) as [rs|] eqn:EP; [|discriminate].
      injection ER as ->. apply parse_lines_spec in EP. exists rs. repeat split; auto; try apply HS.
    + exfalso. rewrite <- (firstn_skipn nr body) in ER. unfold mat_new in ER.
      change (repeat zero (nr * nc)) with ([] ++ repeat zero (nr * nc)) in ER.
      rewrite read_rows_too_many in ER; [|lia|rewrite firstn_length; lia|reflexivity|rewrite firstn_length, repeat_length; nia].
      destruct (parse_lines _ _ _ _); [|discriminate]. destruct (skipn nr body) eqn:Es.
      * apply (f_equal (@length _)) in Es. rewrite skipn_length in Es. cbn in Es. lia.
      * destruct (negb _); [discriminate|]. destruct (elem _); discriminate.
  - intros (U & header & body & nr & nc & rows & FP & HS & F & L & ->). rewrite (file_header k zero elem content U header body nr nc FP HS).
    pose proof (Forall2_length F) as LF. rewrite read_rows_new by (rewrite LF; exact L).
    apply parse_lines_spec in F. rewrite F. reflexivity.
Qed.

(** ** the file that is written *)
Definition header_lines (nr nc k : nat) : list bytes :=
  [lit "#?SIMPLE"; lit "NROWS=" ++ print_usize nr; lit "NCOLS=" ++ print_usize nc; lit "NCOMP=" ++ print_usize k; lit "FORMAT=ascii"].
Lemma matrix_header_text nr nc k : matrix_header nr nc k = text_of (header_lines nr nc k ++ [[]]).
Proof.
  unfold matrix_header, header_lines, text_of. cbn [app map concat]. rewrite <- !app_assoc. cbn [app].
  repeat (rewrite <- ?app_assoc; cbn [app]). reflexivity.
Qed.
Lemma print_no_equals n : no_equals (print_usize n).
Proof.
  unfold no_equals, print_usize. pose proof (print_N_digits (N.of_nat n)) as D. rewrite Forall_forall in D. intros H.
  destruct (D _ H) as (d & Hd & E). apply (f_equal code) in E. rewrite code_digit in E by exact Hd. change (code "="%char) with 61%N in E. lia.
Qed.
Lemma says_printed key n : no_equals key -> (Z.of_nat n < 2 ^ 64)%Z -> says (key ++ "="%char :: print_usize n) n.
Proof. intros K H. exists key, (print_usize n). split; [reflexivity|]. split; [exact K|]. split; [apply print_no_equals|apply print_parse_usize; exact H]. Qed.
Ltac no_eq := unfold no_equals; cbn; intros Q; repeat destruct Q as [Q|Q]; try discriminate Q; try contradiction.
Ltac not_begins := intros [? Q]; discriminate Q.
Lemma header_lines_say nr nc k : (Z.of_nat nr < 2 ^ 64)%Z -> (Z.of_nat nc < 2 ^ 64)%Z -> (Z.of_nat k < 2 ^ 64)%Z ->
  header_says k (header_lines nr nc k) nr nc.
Proof.
  intros H1 H2 H3.
  assert (S1 : says (lit "NROWS=" ++ print_usize nr) nr) by (apply (says_printed (lit "NROWS")); [no_eq|exact H1]).
  assert (S2 : says (lit "NCOLS=" ++ print_usize nc) nc) by (apply (says_printed (lit "NCOLS")); [no_eq|exact H2]).
  assert (S3 : says (lit "NCOMP=" ++ print_usize k) k) by (apply (says_printed (lit "NCOMP")); [no_eq|exact H3]).
  unfold header_says, header_lines. repeat split.
  - repeat constructor; eexists; eexists; split; reflexivity.
  - repeat constructor; try not_begins. intros _. exists nr. exact S1.
  - repeat constructor; try not_begins. intros _. exists nc. exact S2.
  - repeat constructor; try not_begins. intros _. exact S3.
  - exists [lit "#?SIMPLE"]. eexists. eexists. split; [reflexivity|]. split; [eexists; reflexivity|]. split; [exact S1|].
    repeat constructor; not_begins.
  - exists [lit "#?SIMPLE"; lit "NROWS=" ++ print_usize nr]. eexists. eexists. split; [reflexivity|]. split; [eexists; reflexivity|]. split; [exact S2|].
    repeat constructor; not_begins.
Qed.
Lemma header_lines_plain nr nc k : Forall plain (header_lines nr nc k).
Proof.
  unfold header_lines. constructor; [plain_lit|]. do 3 (constructor; [apply plain_app; [plain_lit|apply plain_print]|]).
  constructor; [plain_lit|constructor].
Qed.
Lemma header_lines_one nr nc k : Forall one_line (header_lines nr nc k).
Proof.
  assert (P : forall key n, Forall (fun c => c <> NL) key -> one_line (key ++ print_usize n)).
  { intros. apply one_line_forall. apply Forall_app. split; [assumption|apply print_not_nl]. }
  unfold header_lines. constructor; [apply one_line_forall; repeat constructor; discriminate|].
  do 3 (constructor; [apply P; repeat constructor; discriminate|]).
  constructor; [apply one_line_forall; repeat constructor; discriminate|constructor].
Qed.
Lemma header_lines_cr nr nc k : Forall (fun l => ~ In CR l) (header_lines nr nc k).
Proof.
  assert (P : forall key n, Forall (fun c => c <> CR) key -> ~ In CR (key ++ print_usize n)).
  { intros key n H Q. apply in_app_iff in Q as [Q|Q].
    - rewrite Forall_forall in H. exact (H _ Q eq_refl).
    - pose proof (print_not_ws n) as W. rewrite Forall_forall in W. specialize (W _ Q). discriminate. }
  unfold header_lines. constructor; [no_eq|]. do 3 (constructor; [apply P; repeat constructor; discriminate|]). constructor; [no_eq|constructor].
Qed.

Lemma word_no c l : word l -> is_ws c = true -> ~ In c l.
Proof. intros W Hc Q. unfold word in W. rewrite Forall_forall in W. rewrite (W _ Q) in Hc. discriminate. Qed.
(** the words of an element *)
Definition spoken {A} (show : A -> bytes) (k : nat) (elem : list bytes -> option A) (x y : A) : Prop :=
  exists g, length g = k /\ (forall l, split_ws (show x ++ TAB :: l) = g ++ split_ws l) /\ elem g = Some y /\ plain (show x) /\ ~ In NL (show x) /\ ~ In CR (show x).
Lemma row_text_says {A} (show : A -> bytes) k elem xs ys : Forall2 (spoken show k elem) xs ys -> row_says k elem (length xs) (row_text show xs) ys.
Proof.
  intros F. assert (Q : exists groups, split_ws (row_text show xs) = concat groups /\ Forall (fun g => length g = k) groups /\ length groups = length xs /\ Forall2 (fun g v => elem g = Some v) groups ys); [|exact Q].
  induction F as [|x y xs ys (g & Lg & Sg & Eg & _) _ (groups & E & L & Ln & F2)].
  - exists []. repeat split; constructor.
  - exists (g :: groups). unfold row_text in *. cbn [map concat]. rewrite <- app_assoc. cbn [app]. rewrite Sg, E. split; [reflexivity|].
    split; [constructor; assumption|]. split; [cbn; lia|]. constructor; assumption.
Qed.
Lemma row_text_chars {A} (show : A -> bytes) k elem xs ys : Forall2 (spoken show k elem) xs ys ->
  plain (row_text show xs) /\ ~ In NL (row_text show xs) /\ ~ In CR (row_text show xs).
Proof.
  induction 1 as [|x y xs ys (g & _ & _ & _ & P & Hn & Hc) _ (P' & Hn' & Hc')].
  - repeat split; [constructor|intros []|intros []].
  - unfold row_text in *. cbn [map concat]. split; [|split].
    + apply plain_app; [apply plain_app; [exact P|plain_lit]|exact P'].
    + rewrite !in_app_iff. cbn. intros [[Q|[Q|[]]]|Q]; [contradiction|discriminate|contradiction].
    + rewrite !in_app_iff. cbn. intros [[Q|[Q|[]]]|Q]; [contradiction|discriminate|contradiction].
Qed.
Lemma text_plain ls : Forall plain ls -> plain (text_of ls).
Proof.
  unfold text_of. induction 1 as [|l ls H _ IH]; [constructor|]. cbn [map concat].
  apply plain_app; [apply plain_app; [exact H|plain_lit]|exact IH].
Qed.
Lemma saved_lines {A} (show : A -> bytes) k elem nr nc rows rows' : Forall2 (Forall2 (spoken show k elem)) rows rows' ->
  lines (matrix_header nr nc k ++ text_of (map (row_text show) rows)) = header_lines nr nc k ++ [] :: map (row_text show) rows /\
  utf8 (matrix_header nr nc k ++ text_of (map (row_text show) rows)) = true.
Proof.
  intros F. rewrite matrix_header_text, <- text_app, <- app_assoc. cbn [app].
  assert (R : Forall plain (map (row_text show) rows) /\ Forall one_line (map (row_text show) rows) /\ Forall (fun l => ~ In CR l) (map (row_text show) rows)).
  { induction F as [|x y xs ys H _ (I1 & I2 & I3)]; [repeat split; constructor|]. destruct (row_text_chars _ _ _ _ _ H) as (P1 & P2 & P3).
    cbn [map]. repeat split; constructor; assumption. }
  destruct R as (R1 & R2 & R3). split.
  - apply lines_text; apply Forall_app; split; try apply header_lines_one; try apply header_lines_cr; constructor; try assumption; intros [].
  - apply utf8_plain. assert (G : Forall plain (header_lines nr nc k ++ [] :: map (row_text show) rows)).
    { apply Forall_app. split; [apply header_lines_plain|]. constructor; [constructor|exact R1]. }
    apply text_plain. exact G.
Qed.
(** reading a file with the header of one size and the rows of another one *)
Lemma read_saved {A} (show : A -> bytes) k (zero : A) elem nr nc rows rows' :
  (Z.of_nat nr < 2 ^ 64)%Z -> (Z.of_nat nc < 2 ^ 64)%Z -> (Z.of_nat k < 2 ^ 64)%Z -> rectangular nc rows ->
  Forall2 (Forall2 (spoken show k elem)) rows rows' -> length rows <= nr ->
  read_any k zero elem (matrix_header nr nc k ++ text_of (map (row_text show) rows)) =
  Ret (Some (mkMat nr nc (concat rows' ++ repeat zero ((nr - length rows') * nc)))).
Proof.
  intros H1 H2 H3 R F L. destruct (saved_lines show k elem nr nc rows rows' F) as [EL U]. apply read_any_some. split; [exact U|].
  exists (header_lines nr nc k), (map (row_text show) rows), nr, nc, rows'.
  split; [right; exists []; split; [intros (c & r & E & _); discriminate|exact EL]|].
  split; [apply header_lines_say; assumption|]. split; [|split; [|reflexivity]].
  - clear -R F. induction F as [|x y xs ys H _ IH]; [constructor|]. inversion R; subst. constructor; [|apply IH; assumption].
    apply row_text_says. exact H.
  - left. rewrite <- (Forall2_length F). exact L.
Qed.
Lemma read_saved_too_many {A} (show : A -> bytes) k (zero : A) elem nr nc rows rows' :
  (Z.of_nat nr < 2 ^ 64)%Z -> (Z.of_nat nc < 2 ^ 64)%Z -> (Z.of_nat k < 2 ^ 64)%Z -> rectangular nc rows ->
  Forall2 (Forall2 (spoken show k elem)) rows rows' -> nr < length rows -> 0 < nc ->
  read_any k zero elem (matrix_header nr nc k ++ text_of (map (row_text show) rows)) = Crash.
Proof.
  intros H1 H2 H3 R F L Hc. destruct (saved_lines show k elem nr nc rows rows' F) as [EL U].
  rewrite (file_header k zero elem _ U (header_lines nr nc k) (map (row_text show) rows) nr nc);
    [|right; exists []; split; [intros (c & r & E & _); discriminate|exact EL]|apply header_lines_say; assumption].
  assert (PL : parse_lines k elem nc (map (row_text show) rows) = Some rows').
  { apply parse_lines_spec. clear -R F. induction F as [|x y xs ys H _ IH]; [constructor|]. inversion R; subst. constructor; [|apply IH; assumption].
    apply row_text_says. exact H. }
  set (ls := map (row_text show) rows) in *. assert (Ll : length ls = length rows) by apply map_length.
  rewrite <- (firstn_skipn nr ls) in PL |- *. unfold mat_new. change (repeat zero (nr * nc)) with ([] ++ repeat zero (nr * nc)).
  rewrite read_rows_too_many; [|exact Hc|rewrite firstn_length; lia|reflexivity|rewrite firstn_length, repeat_length; nia].
  destruct (skipn nr ls) as [|l rest] eqn:Es.
  { apply (f_equal (@length _)) in Es. rewrite skipn_length in Es. cbn in Es. lia. }
  revert PL. generalize rows'. induction (firstn nr ls) as [|a as_ IH]; intros rs; cbn [app parse_lines].
  - unfold parse_line at 1. destruct (Nat.eqb (length (split_ws l)) (k * nc)); [|discriminate]. cbn [negb].
    destruct nc as [|nc']; [lia|]. cbn [parse_elems]. destruct (elem (firstn k (split_ws l))); [reflexivity|discriminate].
  - destruct (parse_line k elem nc a); [|discriminate]. destruct (parse_lines k elem nc (as_ ++ l :: rest)) as [q|] eqn:Eq; [|discriminate].
    intros _. specialize (IH q eq_refl). destruct (parse_lines k elem nc as_); [exact IH|discriminate].
Qed.
(** the words of printed numbers and colours *)
Lemma spoken_float {N : Num} (show : F -> bytes) parse x y : printed show parse x y -> spoken show 1 (float_of_tokens parse) x y.
Proof.
  intros (NE & W & P & E). exists [show x]. split; [reflexivity|]. split; [intros l; rewrite split_ws_word by (auto; reflexivity); reflexivity|].
  split; [exact E|]. split; [exact P|]. split; apply word_no; auto.
Qed.
Lemma spoken_colour {N : Num} (show : F -> bytes) parse x y : printed show parse (sr x) (sr y) -> printed show parse (sg x) (sg y) -> printed show parse (sb x) (sb y) ->
  spoken (show_colour show) 3 (colour_of_tokens parse) x y.
Proof.
  intros (NE & W & P & E) (NE' & W' & P' & E') (NE2 & W2 & P2 & E2). exists [show (sr x); show (sg x); show (sb x)]. split; [reflexivity|].
  split.
  { intros l. unfold show_colour. repeat (rewrite <- app_assoc; cbn [app]). cbn [list_ascii_of_string app].
    rewrite split_ws_word by (auto; reflexivity). rewrite split_ws_word by (auto; reflexivity). rewrite split_ws_word by (auto; reflexivity). reflexivity. }
  split; [cbn; rewrite E, E', E2; destruct y; reflexivity|].
  split; [unfold show_colour; repeat apply plain_app; try assumption; plain_lit|].
  split; unfold show_colour; rewrite !in_app_iff; intros Q; repeat destruct Q as [Q|Q]; try discriminate Q; try (destruct Q as [Q|Q]; [discriminate Q|contradiction]);
    try (revert Q; apply word_no; auto; fail); try contradiction.
Qed.
Lemma read_rows_not_stuck {A} k (elem : list bytes -> option A) ls : forall nrow m, read_rows k elem nrow ls m <> Stuck.
Proof.
  assert (R : forall todo nrow ncol values m, read_row k elem todo nrow ncol values m <> Stuck).
  { induction todo as [|todo IH]; intros; cbn [read_row]; [discriminate|]. destruct (elem _); [|discriminate]. destruct (mat_set _ _ _ _); [apply IH|discriminate]. }
  induction ls as [|l ls IH]; intros nrow m; cbn [read_rows]; [discriminate|]. destruct (negb _); [discriminate|].
  specialize (R (m_cols m) nrow 0 (split_ws l) m). destruct (read_row _ _ _ _ _ _ _) as [[m'|]| |]; cbn [obind]; try discriminate; [apply IH|contradiction].
Qed.
