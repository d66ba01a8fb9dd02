(** * Facts about byte strings *)
From Coq Require Import NArith Nnat.
From Verif Require Import Text.
Open Scope nat_scope.

Lemma beqb_eq a b : beqb a b = true <-> a = b.
Proof. apply Ascii.eqb_eq. Qed.
Lemma beqb_refl a : beqb a a = true.
Proof. apply Ascii.eqb_refl. Qed.
Lemma bytes_eqb_eq a b : bytes_eqb a b = true <-> a = b.
Proof.
  revert b. induction a as [|x a IH]; intros [|y b]; cbn [bytes_eqb]; try (split; [discriminate|discriminate]); [tauto|].
  rewrite andb_true_iff, beqb_eq, IH. split; [intros [-> ->]; reflexivity|intros E; injection E; auto].
Qed.
Lemma bytes_eqb_refl a : bytes_eqb a a = true.
Proof. apply bytes_eqb_eq. reflexivity. Qed.

Lemma code_lt c : (code c < 256)%N.
Proof. apply N_ascii_bounded. Qed.
Lemma byte_val_range c : (0 <= byte_val c < 256)%Z.
Proof. unfold byte_val. pose proof (code_lt c). lia. Qed.
Lemma byte_val_of n : byte_val (byte_of n) = (n mod 256)%Z.
Proof.
  unfold byte_val, byte_of, code. pose proof (Z.mod_pos_bound n 256 ltac:(lia)).
  rewrite N_ascii_embedding by lia. lia.
Qed.
Lemma byte_of_val c : byte_of (byte_val c) = c.
Proof.
  unfold byte_of. rewrite Z.mod_small by apply byte_val_range. unfold byte_val, code. rewrite N2Z.id. apply ascii_N_embedding.
Qed.

(** ** decimal numbers *)
Lemma code_digit d : (d < 10)%N -> code (digit d) = (48 + d)%N.
Proof. intros H. unfold code, digit. apply N_ascii_embedding. lia. Qed.
Lemma digit_val_digit d : (d < 10)%N -> digit_val (digit d) = Some d.
Proof.
  intros H. unfold digit_val. rewrite code_digit by exact H.
  destruct (N.leb_spec 48 (48 + d)); [|lia]. destruct (N.leb_spec (48 + d) 57); [|lia]. cbn [andb]. f_equal. lia.
Qed.
Lemma parse_digits_app acc a b : parse_digits acc (a ++ b) =
  match parse_digits acc a with Some x => parse_digits x b | None => None end.
Proof. revert acc. induction a as [|c a IH]; intros acc; [reflexivity|]. cbn. destruct (digit_val c); [apply IH|reflexivity]. Qed.
Lemma dec_parse fuel n : (n < 2 ^ N.of_nat fuel)%N -> fuel <> 0 -> parse_digits 0 (dec fuel n) = Some n.
Proof.
  revert n. induction fuel as [|k IH]; intros n H Hf; [contradiction|]. cbn [dec]. rewrite parse_digits_app.
  pose proof (N.div_mod' n 10) as DM. pose proof (N.mod_lt n 10 ltac:(lia)) as ML.
  destruct (N.ltb_spec n 10) as [L|L].
  - cbn [parse_digits]. rewrite digit_val_digit by exact ML. f_equal. rewrite N.mod_small by lia. lia.
  - assert (n / 10 < 2 ^ N.of_nat k)%N.
    { rewrite Nat2N.inj_succ, N.pow_succ_r' in H. apply N.div_lt_upper_bound; lia. }
    rewrite IH; [|assumption|intros ->; cbn in *; lia]. cbn [parse_digits]. rewrite digit_val_digit by exact ML. f_equal. lia.
Qed.
Lemma dec_digits fuel n : Forall (fun c => exists d, (d < 10)%N /\ c = digit d) (dec fuel n).
Proof.
  revert n. induction fuel as [|k IH]; intros n; [constructor|]. cbn [dec]. apply Forall_app. split.
  - destruct (n <? 10)%N; [constructor|apply IH].
  - constructor; [|constructor]. exists (n mod 10)%N. split; [apply N.mod_lt; lia|reflexivity].
Qed.
Lemma print_N_digits n : Forall (fun c => exists d, (d < 10)%N /\ c = digit d) (print_N n).
Proof. apply dec_digits. Qed.
Lemma print_N_nonempty n : print_N n <> [].
Proof. unfold print_N. cbn [dec]. intros E. apply app_eq_nil in E. destruct E as [_ E]. discriminate. Qed.
Lemma size_nat_bound n : (n < 2 ^ N.of_nat (S (N.size_nat n)))%N.
Proof.
  rewrite Nat2N.inj_succ. rewrite N.pow_succ_r'. 
  assert (E : N.of_nat (N.size_nat n) = N.size n).
  { destruct n as [|p]; [reflexivity|]. cbn. induction p; cbn; try rewrite <- IHp; lia. }
  rewrite E. pose proof (N.size_gt n). lia.
Qed.
Lemma print_parse_N n : (n < 2 ^ 64)%N -> parse_usize_N (print_N n) = Some n.
Proof.
  intros H. unfold parse_usize_N.
  pose proof (print_N_nonempty n) as NE. pose proof (print_N_digits n) as D.
  assert (P : parse_digits 0 (print_N n) = Some n) by (apply dec_parse; [apply size_nat_bound|discriminate]).
  destruct (print_N n) as [|c l]; [contradiction|].
  assert (C : beqb c "+"%char = false).
  { apply Forall_inv in D as (d & Hd & ->). destruct (beqb (digit d) "+"%char) eqn:E; [|reflexivity].
    apply beqb_eq in E. apply (f_equal code) in E. rewrite code_digit in E by exact Hd. change (code "+"%char) with 43%N in E. lia. }
  rewrite C. cbn [parse_unsigned]. rewrite P. destruct (N.ltb_spec n (2 ^ 64)); [reflexivity|lia].
Qed.
Lemma print_parse_usize n : (Z.of_nat n < 2 ^ 64)%Z -> parse_usize (print_usize n) = Some n.
Proof.
  intros H. unfold parse_usize, print_usize. rewrite print_parse_N by lia. cbn. f_equal. lia.
Qed.

(** ** splitting *)
Lemma split_on_nonempty p l : split_on p l <> [].
Proof. destruct l as [|c l]; cbn; [discriminate|]. destruct (p c); [discriminate|]. destruct (split_on p l); discriminate. Qed.
Lemma split_on_none p l : Forall (fun c => p c = false) l -> split_on p l = [l].
Proof. induction 1 as [|c l H _ IH]; [reflexivity|]. cbn. rewrite H, IH. reflexivity. Qed.
Lemma split_on_sep p w c l : Forall (fun c => p c = false) w -> p c = true -> split_on p (w ++ c :: l) = w :: split_on p l.
Proof. intros H Hc. induction H as [|x w H _ IH]; cbn; [rewrite Hc; reflexivity|]. rewrite H, IH. reflexivity. Qed.
Lemma cut_line_app w l : Forall (fun c => c <> NL) w -> cut_line (w ++ NL :: l) = Some (w, l).
Proof.
  induction 1 as [|c w H _ IH]; [reflexivity|]. cbn [app cut_line].
  destruct (beqb c NL) eqn:E; [apply beqb_eq in E; contradiction|]. rewrite IH. reflexivity.
Qed.
Lemma cut_line_some l w r : cut_line l = Some (w, r) -> l = w ++ NL :: r /\ Forall (fun c => c <> NL) w.
Proof.
  revert w r. induction l as [|c l IH]; intros w r; [discriminate|]. cbn. destruct (beqb c NL) eqn:E.
  - intros H. injection H as <- <-. apply beqb_eq in E as ->. split; [reflexivity|constructor].
  - destruct (cut_line l) as [[a b]|]; [|discriminate]. intros H. injection H as <- <-.
    destruct (IH a b eq_refl) as [-> F]. split; [reflexivity|]. constructor; [|exact F].
    intros ->. rewrite beqb_refl in E. discriminate.
Qed.
Lemma cut_line_none l : cut_line l = None <-> Forall (fun c => c <> NL) l.
Proof.
  induction l as [|c l IH]; cbn; [split; constructor|]. destruct (beqb c NL) eqn:E.
  - apply beqb_eq in E as ->. split; [discriminate|]. intros H. inversion H. contradiction.
  - assert (c <> NL) by (intros ->; rewrite beqb_refl in E; discriminate).
    destruct (cut_line l) as [[a b]|]; (split; intros H'); try discriminate.
    + inversion H'; subst. apply IH in H3. discriminate.
    + constructor; [assumption|]. apply IH. reflexivity.
    + reflexivity.
Qed.
Lemma starts_with_spec l p : starts_with l p = true <-> exists r, l = p ++ r.
Proof.
  revert l. induction p as [|x p IH]; intros l; cbn [app].
  - split; [intros _; exists l; reflexivity|intros _; destruct l; reflexivity].
  - destruct l as [|y l]; [split; [discriminate|intros [r H]; discriminate]|].
    cbn [starts_with]. rewrite andb_true_iff, beqb_eq, IH. split.
    + intros [-> [r ->]]. exists r. reflexivity.
    + intros [r H]. injection H as -> ->. split; [reflexivity|exists r; reflexivity].
Qed.

(** ASCII text is UTF-8 *)
Definition plain (l : bytes) : Prop := Forall (fun c => (code c < 128)%N) l.
Lemma utf8_plain l : plain l -> utf8 l = true.
Proof.
  unfold plain. induction l as [|c l IH]; intros H; [reflexivity|]. inversion H; subst. cbn [utf8].
  unfold between at 1. destruct (N.leb_spec 0 (code c)); [|lia]. destruct (N.leb_spec (code c) 127); [|lia].
  cbn [andb]. apply IH. assumption.
Qed.
Lemma plain_print n : plain (print_usize n).
Proof.
  unfold plain, print_usize. pose proof (print_N_digits (N.of_nat n)) as H. induction H as [|c l (d & Hd & ->) _ IH]; constructor; [|exact IH].
  rewrite code_digit; lia.
Qed.
Lemma print_not_ws n : Forall (fun c => is_ws c = false) (print_usize n).
Proof.
  unfold print_usize. pose proof (print_N_digits (N.of_nat n)) as H. induction H as [|c l (d & Hd & ->) _ IH]; constructor; [|exact IH].
  unfold is_ws. rewrite code_digit by exact Hd. destruct d as [|[[[[|[]|]|[]|]|[|[]|]|]|[[[]|[]|]|[[]|[]|]|]|]]; cbn in *; try reflexivity; try lia.
Qed.
Lemma print_not_nl n : Forall (fun c => c <> NL) (print_usize n).
Proof.
  eapply Forall_impl; [|apply print_not_ws]. intros c H ->. discriminate.
Qed.
Lemma plain_app a b : plain a -> plain b -> plain (a ++ b).
Proof. intros. apply Forall_app. split; assumption. Qed.
Ltac plain_lit := unfold plain; repeat constructor.
