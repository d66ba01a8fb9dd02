(** * Decimal notation of real numbers

    A concrete `{:.5}` and a concrete parser of decimal numbers, over the reals: the contract [printed] that the theorems about
    matrix files ask of the standard library's functions is met by them. *)
From Verif Require Import NumR Text TextProofs SpecImage SpecMatrix.
From Coq Require Import ZArith NArith Lia Lra Reals.
Open Scope R_scope.

(** five digits *)
Definition pad5 (m : N) : bytes :=
  [digit (m / 10000 mod 10); digit (m / 1000 mod 10); digit (m / 100 mod 10); digit (m / 10 mod 10); digit (m mod 10)]%N.
(** the nearest multiple of 1/100000 *)
Definition hundred_thousandths (x : R) : Z := Int_part (Rabs x * 100000 + / 2).
Definition show5 (x : R) : bytes :=
  let k := Z.to_N (hundred_thousandths x) in
  (if Rltb x 0 then ["-"%char] else []) ++ print_N (k / 100000) ++ "."%char :: pad5 (k mod 100000).

Definition parse_decimal (l : bytes) : option R :=
  let '(s, l) := match l with c :: l' => if beqb c "-"%char then (-1, l') else (1, l) | [] => (1, []) end in
  match split_on (beqb "."%char) l with
  | [a; b] => match parse_unsigned a, parse_unsigned b with
              | Some n, Some m => Some (s * (IZR (Z.of_N n) + IZR (Z.of_N m) / 10 ^ length b))
              | _, _ => None
              end
  | _ => None
  end.
Definition near5 (x : R) : R := (if Rltb x 0 then -1 else 1) * (IZR (hundred_thousandths x) / 100000).

Lemma hundred_nonneg x : (0 <= hundred_thousandths x)%Z.
Proof.
  unfold hundred_thousandths. pose proof (base_Int_part (Rabs x * 100000 + / 2)) as [_ H]. pose proof (Rabs_pos x).
  assert (-1 < IZR (Int_part (Rabs x * 100000 + / 2))) by lra. apply lt_IZR in H1. lia.
Qed.
Lemma near5_close x : Rabs (near5 x - x) <= 5 / 1000000.
Proof.
  unfold near5, hundred_thousandths. pose proof (base_Int_part (Rabs x * 100000 + / 2)) as [H1 H2].
  set (k := IZR (Int_part (Rabs x * 100000 + / 2))) in *. clearbody k. unfold Rltb. destruct (Rlt_dec x 0) as [L|L].
  - rewrite Rabs_left in * by lra. apply Rabs_le. lra.
  - rewrite (Rabs_right x) in * by lra. apply Rabs_le. lra.
Qed.
Lemma pad5_parse m : (m < 100000)%N -> parse_digits 0 (pad5 m) = Some m.
Proof.
  intros H. unfold pad5. cbn [parse_digits].
  rewrite !digit_val_digit by (apply N.mod_lt; discriminate). f_equal.
  Ltac Zify.zify_post_hook ::= Z.to_euclidean_division_equations. lia.
Qed.
Lemma pad5_digits m : Forall (fun c => exists d, (d < 10)%N /\ c = digit d) (pad5 m).
Proof. unfold pad5. repeat constructor; eexists; (split; [apply N.mod_lt; discriminate|reflexivity]). Qed.
Lemma digit_facts d : (d < 10)%N -> is_ws (digit d) = false /\ (code (digit d) < 128)%N /\ beqb "."%char (digit d) = false /\ beqb (digit d) "-"%char = false.
Proof.
  intros H. assert (C := code_digit d H). split; [|split; [lia|split]].
  - unfold is_ws. rewrite C. destruct d as [|[[[[|[]|]|[]|]|[|[]|]|]|[[[]|[]|]|[[]|[]|]|]|]]; cbn in *; try reflexivity; try lia.
  - destruct (beqb "." (digit d)) eqn:E; [|reflexivity]. apply beqb_eq in E. apply (f_equal code) in E. rewrite C in E. change (code ".") with 46%N in E. lia.
  - destruct (beqb (digit d) "-") eqn:E; [|reflexivity]. apply beqb_eq in E. apply (f_equal code) in E. rewrite C in E. change (code "-") with 45%N in E. lia.
Qed.
Lemma digits_forall (P : ascii -> Prop) l : (forall d, (d < 10)%N -> P (digit d)) -> Forall (fun c => exists d, (d < 10)%N /\ c = digit d) l -> Forall P l.
Proof. intros H F. eapply Forall_impl; [|exact F]. intros c (d & Hd & ->). auto. Qed.
Lemma print_N_parse n : parse_digits 0 (print_N n) = Some n.
Proof. apply dec_parse; [apply size_nat_bound|discriminate]. Qed.

Theorem show5_printed x : printed show5 parse_decimal x (near5 x).
Proof.
  unfold printed. set (k := Z.to_N (hundred_thousandths x)).
  assert (Ek : show5 x = (if Rltb x 0 then ["-"%char] else []) ++ print_N (k / 100000) ++ "."%char :: pad5 (k mod 100000)) by reflexivity.
  rewrite Ek. clear Ek.
  pose proof (print_N_digits (k / 100000)) as D1. pose proof (pad5_digits (k mod 100000)) as D2.
  assert (CH : forall P : ascii -> Prop, (forall d, (d < 10)%N -> P (digit d)) -> P "-"%char -> P "."%char ->
    Forall P ((if Rltb x 0 then ["-"%char] else []) ++ print_N (k / 100000) ++ "."%char :: pad5 (k mod 100000))).
  { intros P Pd Pm Pp. apply Forall_app. split; [destruct (Rltb x 0); repeat constructor; assumption|].
    apply Forall_app. split; [apply digits_forall; assumption|]. constructor; [assumption|]. apply digits_forall; assumption. }
  split; [|split; [|split]].
  - intros E. apply app_eq_nil in E as [_ E]. apply app_eq_nil in E as [_ E]. discriminate.
  - apply CH; try reflexivity. intros d Hd. apply digit_facts. exact Hd.
  - apply CH; try reflexivity. intros d Hd. apply digit_facts. exact Hd.
  - assert (NS : split_on (beqb "."%char) (print_N (k / 100000) ++ "."%char :: pad5 (k mod 100000)) = [print_N (k / 100000); pad5 (k mod 100000)]).
    { rewrite split_on_sep; [|apply digits_forall; [intros d Hd; apply digit_facts; exact Hd|exact D1]|reflexivity].
      rewrite split_on_none; [reflexivity|]. apply digits_forall; [intros d Hd; apply digit_facts; exact Hd|exact D2]. }
    assert (PU : parse_unsigned (print_N (k / 100000)) = Some (k / 100000)%N).
    { unfold parse_unsigned. pose proof (print_N_nonempty (k / 100000)). destruct (print_N (k / 100000)) eqn:E; [contradiction|]. rewrite <- E. apply print_N_parse. }
    assert (PP : parse_unsigned (pad5 (k mod 100000)) = Some (k mod 100000)%N).
    { apply (pad5_parse (k mod 100000)). apply N.mod_lt. discriminate. }
    assert (V : IZR (Z.of_N (k / 100000)) + IZR (Z.of_N (k mod 100000)) / 10 ^ 5 = IZR (hundred_thousandths x) / 100000).
    { replace (hundred_thousandths x) with (Z.of_N k) by (unfold k; rewrite Z2N.id by apply hundred_nonneg; reflexivity).
      pose proof (N.div_mod' k 100000) as DM. apply (f_equal Z.of_N) in DM. rewrite N2Z.inj_add, N2Z.inj_mul in DM. apply (f_equal IZR) in DM.
      rewrite plus_IZR, mult_IZR in DM. change (Z.of_N 100000) with 100000%Z in DM. rewrite DM. field. }
    assert (PD : forall l, (forall c l', l = c :: l' -> beqb c "-"%char = false) -> parse_decimal l =
      match split_on (beqb "."%char) l with
      | [a; b] => match parse_unsigned a, parse_unsigned b with
              | Some n, Some m => Some (1 * (IZR (Z.of_N n) + IZR (Z.of_N m) / 10 ^ length b))
              | _, _ => None
              end
      | _ => None
      end).
    { intros [|c l] H; [reflexivity|]. unfold parse_decimal. rewrite (H c l eq_refl). reflexivity. }
    unfold near5. destruct (Rltb x 0).
    + unfold parse_decimal. cbn [app]. rewrite beqb_refl. cbv beta iota zeta. rewrite NS, PU, PP. f_equal.
      change (length (pad5 (k mod 100000))) with 5%nat. rewrite V. reflexivity.
    + cbn [app]. rewrite PD.
      * rewrite NS, PU, PP. f_equal. change (length (pad5 (k mod 100000))) with 5%nat. rewrite V. reflexivity.
      * intros c l' E. pose proof (print_N_nonempty (k / 100000)). destruct (print_N (k / 100000)) as [|c0 l]; [contradiction|].
        injection E as -> _. apply Forall_inv in D1 as (d & Hd & ->). apply digit_facts. exact Hd.
Qed.
(** numbers with at most five decimals are printed exactly *)
Lemma near5_exact z : near5 (IZR z / 100000) = IZR z / 100000.
Proof.
  unfold near5, hundred_thousandths, Rltb.
  assert (E : Rabs (IZR z / 100000) * 100000 = IZR (Z.abs z)).
  { rewrite abs_IZR. unfold Rdiv. rewrite Rabs_mult, (Rabs_right (/ 100000)) by lra. field. }
  rewrite E.
  assert (P : Int_part (IZR (Z.abs z) + / 2) = Z.abs z).
  { symmetry. unfold Int_part. pose proof (tech_up (IZR (Z.abs z) + / 2) (Z.abs z + 1)) as T. rewrite <- T; [lia|rewrite plus_IZR; lra|rewrite plus_IZR; lra]. }
  rewrite P. rewrite abs_IZR. destruct (Rlt_dec (IZR z / 100000) 0).
  - rewrite Rabs_left by lra. field.
  - rewrite Rabs_right by lra. field.
Qed.
