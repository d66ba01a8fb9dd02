(** * Properties C36-C38: matrices and their files *)
From Verif Require Import NumR Text TextProofs Colour SpecImage ColourMatrix SpecMatrix SpecDecimal MatrixProofs.
From Coq Require Import Reals Lra Lia.
Open Scope nat_scope.

(** ** C36 - averages and conversions *)
Theorem C36_to_radiance : forall (N : Num) (cm : GMatrix Spectrum), sized cm ->
  exists m, colour_matrix_to_radiance cm = Ret m /\ sized m /\ m_rows m = m_rows cm /\ m_cols m = m_cols cm /\
    forall r c s, r < m_rows cm -> c < m_cols cm -> mat_get cm r c = Some s -> mat_get m r c = Some (radiance s).
Proof.
  intros N cm S. unfold colour_matrix_to_radiance, convert_matrix.
  destruct (fill_matrix (fun r c => match mat_get cm r c with Some s => radiance s | None => f0 end) (m_rows cm) (m_cols cm) f0
     (fun r c => run v <- ret_opt (mat_get cm r c) ;; Ret (radiance v))) as (m & E & Sm & R & C & G).
  - intros r c Hr Hc. destruct (mat_get_some cm r c S Hr Hc) as [v ->]. reflexivity.
  - exists m. split; [|split; [exact Sm|split; [exact R|split; [exact C|]]]].
    + rewrite <- E. clear. generalize (mat_new (@f0 N) (m_rows cm) (m_cols cm)) as m0. generalize 0 at 1 3.
      induction (m_rows cm) as [|nr IH]; intros i m0; [reflexivity|]. cbn [for_range].
      assert (I : forall j k q, for_range j k (fun c m => run v <- ret_opt (mat_get cm i c) ;; ret_opt (mat_set m i c (radiance v))) q =
        for_range j k (fun c m => run v <- (run v <- ret_opt (mat_get cm i c) ;; Ret (radiance v)) ;; ret_opt (mat_set m i c v)) q).
      { intros j k. revert j. induction k as [|k IHk]; intros j q; [reflexivity|]. cbn [for_range].
        destruct (mat_get cm i j); cbn [ret_opt obind]; [|reflexivity]. destruct (mat_set _ _ _ _); cbn [ret_opt obind]; [apply IHk|reflexivity]. }
      rewrite I. destruct (for_range 0 _ _ m0); cbn [obind]; [apply IH|reflexivity|reflexivity].
    + intros r c s Hr Hc Hs. rewrite G by assumption. rewrite Hs. reflexivity.
Qed.
Print Assumptions C36_to_radiance.
(** luminance is 179 times radiance, element by element *)
Theorem C36_to_luminance : forall (N : Num) (cm : GMatrix Spectrum), sized cm ->
  exists m, colour_matrix_to_luminance cm = Ret m /\ sized m /\ m_rows m = m_rows cm /\ m_cols m = m_cols cm /\
    forall r c s, r < m_rows cm -> c < m_cols cm -> mat_get cm r c = Some s -> mat_get m r c = Some (fmul (radiance s) (flit 179 1)).
Proof.
  intros N cm S. unfold colour_matrix_to_luminance, convert_matrix.
  destruct (fill_matrix (fun r c => match mat_get cm r c with Some s => luminance s | None => f0 end) (m_rows cm) (m_cols cm) f0
     (fun r c => run v <- ret_opt (mat_get cm r c) ;; Ret (luminance v))) as (m & E & Sm & R & C & G).
  - intros r c Hr Hc. destruct (mat_get_some cm r c S Hr Hc) as [v ->]. reflexivity.
  - exists m. split; [|split; [exact Sm|split; [exact R|split; [exact C|]]]].
    + rewrite <- E. clear. generalize (mat_new (@f0 N) (m_rows cm) (m_cols cm)) as m0. generalize 0 at 1 3.
      induction (m_rows cm) as [|nr IH]; intros i m0; [reflexivity|]. cbn [for_range].
      assert (I : forall j k q, for_range j k (fun c m => run v <- ret_opt (mat_get cm i c) ;; ret_opt (mat_set m i c (luminance v))) q =
        for_range j k (fun c m => run v <- (run v <- ret_opt (mat_get cm i c) ;; Ret (luminance v)) ;; ret_opt (mat_set m i c v)) q).
      { intros j k. revert j. induction k as [|k IHk]; intros j q; [reflexivity|]. cbn [for_range].
        destruct (mat_get cm i j); cbn [ret_opt obind]; [|reflexivity]. destruct (mat_set _ _ _ _); cbn [ret_opt obind]; [apply IHk|reflexivity]. }
      rewrite I. destruct (for_range 0 _ _ m0); cbn [obind]; [apply IH|reflexivity|reflexivity].
    + intros r c s Hr Hc Hs. rewrite G by assumption. rewrite Hs. reflexivity.
Qed.
Print Assumptions C36_to_luminance.

Open Scope R_scope.
Definition mean (l : list R) : R := fold_right Rplus 0 l / INR (length l).
(** the elements of column c, from the first row to the last one *)
Definition column_of (m : GMatrix R) (c : nat) (l : list R) : Prop :=
  length l = m_rows m /\ forall r v, nth_error l r = Some v -> mat_get m r c = Some v.

Theorem C36_average : forall dc : GMatrix (@F NumR), sized dc -> (0 < m_rows dc)%nat ->
  exists m, average_matrix dc = Ret m /\ sized m /\ m_rows m = 1%nat /\ m_cols m = m_cols dc /\
    forall c l, (c < m_cols dc)%nat -> column_of dc c l -> mat_get m 0 c = Some (mean l).
Proof.
  intros dc S Hr. unfold average_matrix, mat_mul. cbv zeta. set (w := (f1 / fofZ (Z.of_nat (m_rows dc)))%num).
  set (op := mat_new w 1 (m_rows dc)). change (m_cols op) with (m_rows dc). change (m_rows op) with 1%nat. rewrite Nat.eqb_refl. cbn [negb].
  assert (OP : forall k, (k < m_rows dc)%nat -> mat_get op 0 k = Some w).
  { intros k Hk. unfold mat_get, op, mat_new. cbn [m_rows m_cols m_data]. destruct (Nat.ltb_spec k (m_rows dc)); [|lia]. cbn [Nat.ltb Nat.leb andb].
    cbn [Nat.mul Nat.add]. rewrite Nat.add_0_r. rewrite nth_error_repeat by lia. reflexivity. }
  set (el := fun k c => match mat_get dc k c with Some v => v | None => f0 end).
  set (sum := fun c => fold_left (fun (v : R) k => v + w * el k c) (seq 0 (m_rows dc)) (@f0 NumR)).
  destruct (fill_matrix (fun r c => sum c) 1 (m_cols dc) (f0 : @F NumR)
    (fun r c => for_range 0 (m_rows dc) (fun k v => run x <- ret_opt (mat_get op r k) ;; run y <- ret_opt (mat_get dc k c) ;; Ret (v + x * y)%num) f0))
    as (m & E & Sm & R & C & G).
  - intros r c Hr1 Hc. assert (r = 0)%nat by lia. subst r. unfold sum.
    assert (Q : forall n i (v : R), (i + n <= m_rows dc)%nat ->
       for_range i n (fun k v => run x <- ret_opt (mat_get op 0 k) ;; run y <- ret_opt (mat_get dc k c) ;; Ret (v + x * y)%num) v =
       Ret (fold_left (fun v k => v + w * el k c) (seq i n) v)).
    { induction n as [|n IH]; intros i v Hi; [reflexivity|]. cbn [for_range seq fold_left]. rewrite OP by lia.
      destruct (mat_get_some dc i c S ltac:(lia) Hc) as [y Hy]. rewrite Hy. cbn [ret_opt obind]. rewrite IH by lia.
      assert (Ei : el i c = y) by (unfold el; rewrite Hy; reflexivity). rewrite Ei. reflexivity. }
    exact (Q (m_rows dc) 0%nat (@f0 NumR) (Nat.le_refl _)).
  - exists m. split; [exact E|]. split; [exact Sm|]. split; [exact R|]. split; [exact C|]. intros c l Hc [Ll Hl].
    rewrite G by lia. apply f_equal. unfold mean, sum.
    assert (W : (w : Rdefinitions.R) = / INR (m_rows dc)).
    { unfold w, f1, flit. cbn [fdiv fofZ NumR]. rewrite <- INR_IZR_INZ. field. apply not_0_INR. lia. }
    clearbody w. cbn [F NumR] in w. rewrite W. rewrite Ll. clear W.
    assert (Q : forall n l i (v : Rdefinitions.R), length l = n -> (forall r x, nth_error l r = Some x -> mat_get dc (i + r) c = Some x) ->
      fold_left (fun v k => v + / INR (m_rows dc) * el k c) (seq i n) v = v + / INR (m_rows dc) * fold_right Rplus 0 l).
    { induction n as [|n IH]; intros l' i v L' H'; destruct l' as [|x l']; try discriminate; cbn [seq fold_left fold_right]; [ring|].
      assert (Ex : el i c = x) by (unfold el; rewrite <- (Nat.add_0_r i), (H' 0%nat x eq_refl); reflexivity).
      rewrite (IH l' (Datatypes.S i)); [rewrite Ex; ring|injection L' as L'; exact L'|].
      intros r y Hy. replace (Datatypes.S i + r)%nat with (i + Datatypes.S r)%nat by lia. apply H'. exact Hy. }
    rewrite (Q (m_rows dc) l 0%nat (@f0 NumR) Ll Hl). change (0 / 1 + / INR (m_rows dc) * fold_right Rplus 0 l = fold_right Rplus 0 l / INR (m_rows dc)). unfold Rdiv. ring.
Qed.
Print Assumptions C36_average.
Example C36_hyp : sized (of_rows (A := R) 2 [[1; 2]; [3; 4]]) /\ column_of (of_rows 2 [[1; 2]; [3; 4]]) 1 [2; 4].
Proof.
  split; [reflexivity|]. split; [reflexivity|]. intros [|[|[|r]]] v H; try discriminate; cbn in *; exact H.
Qed.

(** ** C37 - writing and reading *)
Open Scope nat_scope.
(** in any arithmetic: what is read is, channel by channel, what the printed decimals mean *)
Definition fits (nr nc : nat) : Prop := (Z.of_nat nr < 2 ^ 64)%Z /\ (Z.of_nat nc < 2 ^ 64)%Z.
Theorem C37_colour_matrix : forall (N : Num) fmt5 parse (near : F -> F) (cm : GMatrix Spectrum), sized cm -> fits (m_rows cm) (m_cols cm) ->
  Forall (fun s => printed fmt5 parse (sr s) (near (sr s)) /\ printed fmt5 parse (sg s) (near (sg s)) /\ printed fmt5 parse (sb s) (near (sb s))) (m_data cm) ->
  exists file, save_colour_matrix fmt5 cm = Ret file /\
    read_colour_matrix parse file = Ret (Some (mkMat (m_rows cm) (m_cols cm) (map (smap near) (m_data cm)))).
Proof.
  intros N fmt5 parse near cm S [H1 H2] P. destruct (sized_rows cm S) as (rows & R & E). unfold save_colour_matrix.
  rewrite E in *. cbn [of_rows m_rows m_cols m_data] in *. change (mkMat (length rows) (m_cols cm) (concat rows)) with (of_rows (m_cols cm) rows).
  rewrite (matrix_body_text (show_colour fmt5) (m_cols cm) rows R). cbn [obind]. eexists. split; [reflexivity|].
  unfold read_colour_matrix.
  assert (F2 : Forall2 (Forall2 (spoken (show_colour fmt5) 3 (colour_of_tokens parse))) rows (map (map (smap near)) rows)).
  { clear -P. induction rows as [|row rows IH]; constructor.
    - cbn [concat] in P. apply Forall_app in P as [P _]. induction P as [|s row (Q1 & Q2 & Q3) _ IHr]; constructor; [|exact IHr]. apply spoken_colour; assumption.
    - apply IH. cbn [concat] in P. apply Forall_app in P as [_ P]. exact P. }
  rewrite (read_saved (show_colour fmt5) 3 BLACK (colour_of_tokens parse) (length rows) (m_cols cm) rows _ H1 H2 eq_refl R F2 (Nat.le_refl _)).
  rewrite map_length, Nat.sub_diag. cbn [Nat.mul repeat]. rewrite app_nil_r, concat_map. reflexivity.
Qed.
Print Assumptions C37_colour_matrix.
Theorem C37_matrix : forall (N : Num) fmt parse (m : GMatrix F), sized m -> fits (m_rows m) (m_cols m) ->
  Forall (fun x => printed fmt parse x x) (m_data m) ->
  exists file, save_matrix fmt m = Ret file /\ read_matrix parse file = Ret (Some m).
Proof.
  intros N fmt parse m S [H1 H2] P. destruct (sized_rows m S) as (rows & R & E). unfold save_matrix.
  assert (EB : matrix_body fmt m = Ret (text_of (map (row_text fmt) rows))) by (rewrite E; apply matrix_body_text; exact R).
  rewrite EB. cbn [obind]. eexists. split; [reflexivity|]. unfold read_matrix.
  assert (Er : m_rows m = length rows) by (rewrite E; reflexivity). assert (Ed : m_data m = concat rows) by (rewrite E; reflexivity).
  assert (F2 : Forall2 (Forall2 (spoken fmt 1 (float_of_tokens parse))) rows rows).
  { rewrite Ed in P. clear -P. induction rows as [|row rows IH]; constructor.
    - cbn [concat] in P. apply Forall_app in P as [P _]. induction P as [|s row Q _ IHr]; constructor; [|exact IHr]. apply spoken_float; assumption.
    - apply IH. cbn [concat] in P. apply Forall_app in P as [_ P]. exact P. }
  rewrite (read_saved fmt 1 f0 (float_of_tokens parse) (m_rows m) (m_cols m) rows rows H1 H2 eq_refl R F2) by lia.
  rewrite Er, Nat.sub_diag. cbn [Nat.mul repeat]. rewrite app_nil_r. do 2 f_equal. rewrite E at 2. reflexivity.
Qed.
Print Assumptions C37_matrix.

(** with five decimals: every channel of every colour is within 5e-6 *)
Open Scope R_scope.
Definition close (e : R) (a b : @Spectrum NumR) : Prop :=
  Rabs (sr b - sr a) <= e /\ Rabs (sg b - sg a) <= e /\ Rabs (sb b - sb a) <= e.
Theorem C37_precision : forall cm : GMatrix (@Spectrum NumR), sized cm -> fits (m_rows cm) (m_cols cm) ->
  exists file cm', save_colour_matrix show5 cm = Ret file /\ read_colour_matrix parse_decimal file = Ret (Some cm') /\
    m_rows cm' = m_rows cm /\ m_cols cm' = m_cols cm /\ Forall2 (close (5 / 1000000)) (m_data cm) (m_data cm').
Proof.
  intros cm S Fit.
  destruct (C37_colour_matrix NumR show5 parse_decimal near5 cm S Fit) as (file & E1 & E2).
  { apply Forall_forall. intros s _. repeat split; apply show5_printed. }
  exists file. eexists. split; [exact E1|]. split; [exact E2|]. split; [reflexivity|]. split; [reflexivity|]. cbn [m_data].
  clear. induction (m_data cm) as [|s l IH]; [constructor|]. cbn [map]. constructor; [|exact IH]. unfold close. cbn [smap sr sg sb]. repeat split; apply near5_close.
Qed.
Print Assumptions C37_precision.
Example C37_hyp : sized (of_rows 2 [[mkS (N := NumR) 1 2 3; mkS 4 5 6]]) /\ fits 1 2 /\
  Forall (fun x : @F NumR => printed show5 parse_decimal x x) (m_data (of_rows 2 [[IZR 7 / 100000; IZR (-250000) / 100000]])).
Proof.
  split; [reflexivity|]. split; [split; reflexivity|]. cbn [of_rows m_data concat app].
  assert (P : forall z, printed show5 parse_decimal (IZR z / 100000) (IZR z / 100000)).
  { intros z. rewrite <- (near5_exact z) at 2. apply show5_printed. }
  repeat constructor; apply P.
Qed.

(** ** C38 - which files are matrices *)
Open Scope nat_scope.
(** every file is answered *)
Theorem C38_terminates : forall (N : Num) parse content, read_colour_matrix parse content <> Stuck /\ read_matrix parse content <> Stuck.
Proof.
  intros N parse content.
  assert (G : forall A k (z : A) elem, read_any k z elem content <> Stuck).
  { intros A k z elem. unfold read_any. destruct (negb _); [discriminate|]. destruct (matrix_header_loop _ _ _ _ _) as [[[[nr|] [nc|]] h]|]; try discriminate.
    apply read_rows_not_stuck. }
  split; apply G.
Qed.
Print Assumptions C38_terminates.
(** accepted: a good header and as many good rows as the header says, or fewer *)
Theorem C38_accepted : forall (N : Num) parse content m, read_colour_matrix parse content = Ret (Some m) <->
  (utf8 content = true /\ exists header body nr nc rows, file_parts (lines content) header body /\ header_says 3 header nr nc /\
    Forall2 (row_says 3 (colour_of_tokens parse) nc) body rows /\ (length rows <= nr \/ nc = 0) /\
    m = mkMat nr nc (concat rows ++ repeat BLACK ((nr - length rows) * nc))).
Proof. intros. apply read_any_some. Qed.
Print Assumptions C38_accepted.
Theorem C38_accepted_plain : forall (N : Num) parse content m, read_matrix parse content = Ret (Some m) <->
  (utf8 content = true /\ exists header body nr nc rows, file_parts (lines content) header body /\ header_says 1 header nr nc /\
    Forall2 (row_says 1 (float_of_tokens parse) nc) body rows /\ (length rows <= nr \/ nc = 0) /\
    m = mkMat nr nc (concat rows ++ repeat f0 ((nr - length rows) * nc))).
Proof. intros. apply read_any_some. Qed.
Print Assumptions C38_accepted_plain.
(** without a good header - sizes present and readable, the right number of components - there is an error *)
Lemma bad_header {A} k (z : A) elem content :
  (forall header body nr nc, file_parts (lines content) header body -> ~ header_says k header nr nc) -> read_any k z elem content = Ret None.
Proof.
  intros H. destruct (read_any k z elem content) as [[m|]| |] eqn:E; try reflexivity; exfalso;
    (apply file_header_inv in E as (_ & header & body & nr & nc & FP & HS & _); [|discriminate]; exact (H header body nr nc FP HS)).
Qed.
Theorem C38_bad_header : forall (N : Num) parse content,
  ((forall header body nr nc, file_parts (lines content) header body -> ~ header_says 3 header nr nc) -> read_colour_matrix parse content = Ret None) /\
  ((forall header body nr nc, file_parts (lines content) header body -> ~ header_says 1 header nr nc) -> read_matrix parse content = Ret None).
Proof. intros. split; apply bad_header. Qed.
Print Assumptions C38_bad_header.
(** a row (among those the header announces) with a wrong number of values, or an unreadable one, is an error *)
Lemma bad_row {A} k (z : A) elem content header body nr nc good bad rest rows : utf8 content = true ->
  file_parts (lines content) header body -> header_says k header nr nc ->
  body = good ++ bad :: rest -> Forall2 (row_says k elem nc) good rows -> length good < nr ->
  (forall row, ~ row_says k elem nc bad row) -> read_any k z elem content = Ret None.
Proof.
  intros U FP HS -> FG L HB. rewrite (file_header k z elem content U header _ nr nc FP HS).
  assert (PB : parse_line k elem nc bad = None).
  { destruct (parse_line k elem nc bad) as [row|] eqn:E; [|reflexivity]. apply parse_line_spec in E. exfalso. exact (HB row E). }
  assert (PN : forall more, parse_lines k elem nc (good ++ bad :: more) = None).
  { intros more. clear FP L. induction FG as [|l r g rs H _ IH]; cbn [app parse_lines]; [rewrite PB; reflexivity|].
    destruct (parse_line k elem nc l); [rewrite IH|]; reflexivity. }
  destruct (Nat.le_gt_cases (length (good ++ bad :: rest)) nr) as [Q|Q]; [|destruct (Nat.eq_dec nc 0) as [Z|Z]].
  - rewrite read_rows_new by auto. rewrite PN. reflexivity.
  - rewrite read_rows_new by auto. rewrite PN. reflexivity.
  - rewrite <- (firstn_skipn nr (good ++ bad :: rest)). unfold mat_new. change (repeat z (nr * nc)) with ([] ++ repeat z (nr * nc)).
    rewrite read_rows_too_many; [|lia|rewrite firstn_length; lia|reflexivity|rewrite firstn_length, repeat_length; nia].
    rewrite firstn_app. destruct (nr - length good) as [|d] eqn:D; [lia|]. rewrite firstn_all2 by lia. cbn [firstn]. rewrite PN. reflexivity.
Qed.
Theorem C38_bad_row : forall (N : Num) parse content header body nr nc good bad rest rows, utf8 content = true ->
  file_parts (lines content) header body -> header_says 3 header nr nc -> body = good ++ bad :: rest ->
  Forall2 (row_says 3 (colour_of_tokens parse) nc) good rows -> length good < nr ->
  (forall row, ~ row_says 3 (colour_of_tokens parse) nc bad row) -> read_colour_matrix parse content = Ret None.
Proof. intros. eapply bad_row; eassumption. Qed.
Print Assumptions C38_bad_row.
Theorem C38_bad_row_plain : forall (N : Num) parse content header body nr nc good bad rest rows, utf8 content = true ->
  file_parts (lines content) header body -> header_says 1 header nr nc -> body = good ++ bad :: rest ->
  Forall2 (row_says 1 (float_of_tokens parse) nc) good rows -> length good < nr ->
  (forall row, ~ row_says 1 (float_of_tokens parse) nc bad row) -> read_matrix parse content = Ret None.
Proof. intros. eapply bad_row; eassumption. Qed.
Print Assumptions C38_bad_row_plain.

(** a saved matrix that lost its last rows is read without an error, with black in the place of what was lost *)
Definition saved_with (show : R -> bytes) (nr nc : nat) (rows : list (list (@Spectrum NumR))) : bytes :=
  matrix_header nr nc 3 ++ text_of (map (row_text (show_colour (N := NumR) show)) rows).
Theorem C38_missing_rows_refuted : forall nr nc (rows : list (list (@Spectrum NumR))), fits nr nc -> rectangular nc rows -> length rows <= nr ->
  read_colour_matrix parse_decimal (saved_with show5 nr nc rows) =
  Ret (Some (mkMat nr nc (map (smap near5) (concat rows) ++ repeat BLACK ((nr - length rows) * nc)))).
Proof.
  intros nr nc rows [H1 H2] R L. unfold read_colour_matrix, saved_with.
  assert (F2 : Forall2 (Forall2 (spoken (show_colour (N := NumR) show5) 3 (colour_of_tokens (N := NumR) parse_decimal))) rows (map (map (smap near5)) rows)).
  { clear. induction rows as [|row rows IH]; constructor; [|exact IH]. induction row as [|s row IHr]; constructor; [|exact IHr].
    apply spoken_colour; apply show5_printed. }
  rewrite (read_saved (show_colour (N := NumR) show5) 3 (BLACK (N := NumR)) (colour_of_tokens (N := NumR) parse_decimal) nr nc rows _ H1 H2 eq_refl R F2 L).
  rewrite map_length, concat_map. reflexivity.
Qed.
Print Assumptions C38_missing_rows_refuted.
(** ... and one row more than announced makes the reader panic *)
Theorem C38_extra_rows_refuted : forall nr nc (rows : list (list (@Spectrum NumR))), fits nr nc -> rectangular nc rows -> nr < length rows -> 0 < nc ->
  read_colour_matrix parse_decimal (saved_with show5 nr nc rows) = Crash.
Proof.
  intros nr nc rows [H1 H2] R L Hc. unfold read_colour_matrix, saved_with.
  assert (F2 : Forall2 (Forall2 (spoken (show_colour (N := NumR) show5) 3 (colour_of_tokens (N := NumR) parse_decimal))) rows (map (map (smap near5)) rows)).
  { clear. induction rows as [|row rows IH]; constructor; [|exact IH]. induction row as [|s row IHr]; constructor; [|exact IHr].
    apply spoken_colour; apply show5_printed. }
  exact (read_saved_too_many (show_colour (N := NumR) show5) 3 (BLACK (N := NumR)) (colour_of_tokens (N := NumR) parse_decimal) nr nc rows _ H1 H2 eq_refl R F2 L Hc).
Qed.
Print Assumptions C38_extra_rows_refuted.
(** (these are files written by save_colour_matrix, with another number of rows in the header) *)
Theorem C38_saved_form : forall nc (rows : list (list (@Spectrum NumR))), rectangular nc rows ->
  save_colour_matrix show5 (of_rows nc rows) = Ret (saved_with show5 (length rows) nc rows).
Proof. intros nc rows R. unfold save_colour_matrix. rewrite (matrix_body_text (show_colour (N := NumR) show5) nc rows R). reflexivity. Qed.
Print Assumptions C38_saved_form.
Example C38_hyp : rectangular 2 [[mkS (N := NumR) 1%R 2%R 3%R; mkS 4%R 5%R 6%R]] /\ fits 3 2 /\
  (forall header body nr nc, file_parts (lines (lit "no header here")) header body -> ~ header_says 3 header nr nc).
Proof.
  split; [repeat constructor|]. split; [split; reflexivity|].
  intros header body nr nc [[E _]|(b & _ & E)] (_ & _ & _ & _ & (bf & l & a & Eh & (r & ->) & _) & _).
  - rewrite Eh in E. cbn in E. destruct bf as [|? [|]]; try discriminate.
  - rewrite Eh in E. cbn in E. destruct bf as [|? [|]]; try discriminate.
Qed.
