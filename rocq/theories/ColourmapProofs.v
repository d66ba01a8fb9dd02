(** * Proofs about colour maps. *)
From Coq Require Import SpecFloat.
From Verif Require Import NumR NumSF Colour Colourmap ColourTables SpecColour ColourProofs.
Open Scope R_scope.


(** ** The two Rust functions agree (for every arithmetic) *)
Lemma colour_spectrum_agree {N : Num} (x mn mx : F) (m : list Spectrum) :
  map_linear_colour x mn mx m = map_linear_spectrum x mn mx m.
Proof. reflexivity. Qed.

Lemma hd_rev_last {A} (l : list A) d : l <> [] -> hd_error (rev l) = Some (last l d).
Proof.
  intros H. destruct (exists_last H) as (l' & a & ->).
  rewrite rev_app_distr, last_last. reflexivity.
Qed.

Lemma map_low (x mn mx : R) (m : list SpecR) : m <> [] -> x <= mn ->
  map_linear_colour x mn mx m = of_opt (nth_error m 0).
Proof.
  intros Hm Hx. unfold map_linear_colour; rsimp.
  destruct (Rleb_spec x mn); [|lra]. destruct m; [congruence|]. reflexivity.
Qed.

Lemma nth_error_last {A} (l : list A) d : l <> [] -> nth_error l (length l - 1) = Some (last l d).
Proof.
  intros H. destruct (exists_last H) as (l' & a & ->).
  rewrite last_last, app_length. cbn. rewrite nth_error_app2 by lia.
  replace (length l' + 1 - 1 - length l')%nat with 0%nat by lia. reflexivity.
Qed.

Lemma map_high (x mn mx : R) (m : list SpecR) : m <> [] -> mn < x -> mx <= x ->
  map_linear_colour x mn mx m = of_opt (nth_error m (length m - 1)).
Proof.
  intros Hm Hx Hy. unfold map_linear_colour; rsimp.
  destruct (Rleb_spec x mn); [lra|]. destruct (Rleb_spec mx x); [|lra].
  destruct m as [|s m]; [congruence|].
  rewrite (hd_rev_last (s :: m) s), (nth_error_last (s :: m) s); easy.
Qed.

Lemma find_bin_spec (fuel i : nat) (x mn delta : R) : 0 < delta -> (1 <= i)%nat ->
  mn + INR (i - 1) * delta < x ->
  x <= mn + INR (i + fuel - 1) * delta ->
  exists k, find_bin fuel i x mn delta = Some (k, (x - (mn + INR (k - 1) * delta)) / delta) /\
            (i <= k < i + fuel)%nat /\ mn + INR (k - 1) * delta < x <= mn + INR k * delta.
Proof.
  intros Hd. revert i. induction fuel as [|fuel IH]; intros i Hi Hlo Hhi.
  - exfalso. rewrite Nat.add_0_r in Hhi. lra.
  - cbn [find_bin]. rsimp. rewrite <- INR_IZR_INZ.
    assert (E : mn + INR (i - 1) * delta + delta = mn + INR i * delta).
    { rewrite minus_INR by lia. cbn [INR]. lra. }
    rewrite E. destruct (Rleb_spec x (mn + INR i * delta)) as [Hle|Hgt].
    + exists i. split; [reflexivity|]. split; [lia|]. lra.
    + destruct (IH (S i)) as (k & -> & Hk & Hb); [lia| | |].
      * replace (S i - 1)%nat with i by lia. lra.
      * replace (S i + fuel - 1)%nat with (i + S fuel - 1)%nat by lia. assumption.
      * exists k. split; [reflexivity|]. split; [lia|assumption].
Qed.

Lemma lerp_form (a b : SpecR) (w : R) :
  mkS (N := NumR) (sr a + (sr b - sr a) * w) (sg a + (sg b - sg a) * w) (sb a + (sb b - sb a) * w) = lerp a b w.
Proof. unfold lerp. apply spec_ext; cbn [sr sg sb]; ring. Qed.

Lemma map_mid (x mn mx : R) (m : list SpecR) : (2 <= length m)%nat -> mn < x < mx ->
  exists k a b, (S k < length m)%nat /\ nth_error m k = Some a /\ nth_error m (S k) = Some b /\
    knot mn mx (length m) k < x <= knot mn mx (length m) (S k) /\
    map_linear_colour x mn mx m = Ok_ (lerp a b ((x - knot mn mx (length m) k) /
        (knot mn mx (length m) (S k) - knot mn mx (length m) k))).
Proof.
  intros Hn [Hlo Hhi]. set (n := length m) in *.
  assert (Hn1 : 0 < INR (n - 1)) by (apply lt_0_INR; lia).
  set (delta := (mx - mn) / INR (n - 1)).
  assert (Hd : 0 < delta) by (apply Rdiv_lt_0_compat; lra).
  destruct (find_bin_spec (n - 1) 1 x mn delta Hd) as (k & Hf & Hk & Hb); [lia| | |].
  - cbn. lra.
  - replace (1 + (n - 1) - 1)%nat with (n - 1)%nat by lia. unfold delta.
    replace (mn + INR (n - 1) * ((mx - mn) / INR (n - 1))) with mx by (field; lra). lra.
  - destruct (nth_error m (k - 1)) as [a|] eqn:Ea; [|apply nth_error_None in Ea; fold n in Ea; lia].
    destruct (nth_error m k) as [b|] eqn:Eb; [|apply nth_error_None in Eb; fold n in Eb; lia].
    exists (k - 1)%nat, a, b. replace (S (k - 1)) with k by lia.
    split; [lia|]. split; [assumption|]. split; [assumption|].
    unfold knot; fold delta. split; [assumption|].
    unfold map_linear_colour; rsimp.
    destruct (Rleb_spec x mn); [lra|]. destruct (Rleb_spec mx x); [lra|].
    fold n. destruct (Nat.eqb_spec n 0); [lia|].
    rewrite <- INR_IZR_INZ. fold delta. rewrite Hf. cbn [of_opt rbind]. rewrite Ea, Eb. cbn [of_opt rbind].
    rewrite lerp_form. f_equal. f_equal. f_equal.
    replace (INR k) with (INR (k - 1) + 1); [ring|].
    rewrite <- S_INR. f_equal. lia.
Qed.

Lemma knot_mono mn mx n i j : (2 <= n)%nat -> mn < mx -> (i < j)%nat -> knot mn mx n i < knot mn mx n j.
Proof.
  intros Hn H Hij. unfold knot.
  assert (0 < INR (n - 1)) by (apply lt_0_INR; lia).
  assert (0 < (mx - mn) / INR (n - 1)) by (apply Rdiv_lt_0_compat; lra).
  apply lt_INR in Hij. nra.
Qed.
Lemma knot_le mn mx n i j : (2 <= n)%nat -> mn < mx -> (i <= j)%nat -> knot mn mx n i <= knot mn mx n j.
Proof.
  intros Hn H Hij. destruct (Nat.eq_dec i j) as [->|]; [lra|].
  left; apply knot_mono; try assumption; lia.
Qed.
Lemma knot_0 mn mx n : knot mn mx n 0 = mn.
Proof. unfold knot; cbn; ring. Qed.
Lemma knot_last mn mx n : (2 <= n)%nat -> knot mn mx n (n - 1) = mx.
Proof.
  intros H. unfold knot. assert (0 < INR (n - 1)) by (apply lt_0_INR; lia). field; lra.
Qed.

Lemma lerp_0 a b : lerp a b 0 = a.
Proof. apply spec_ext; cbn; ring. Qed.
Lemma lerp_1 a b : lerp a b 1 = b.
Proof. apply spec_ext; cbn; ring. Qed.

(** Full functional specification: on every segment [knot k, knot (k+1)] (ends included) the
    map is the straight line between entries k and k+1. *)
Lemma map_polyline (x mn mx : R) (m : list SpecR) (k : nat) (a b : SpecR) :
  mn < mx -> nth_error m k = Some a -> nth_error m (S k) = Some b ->
  knot mn mx (length m) k <= x <= knot mn mx (length m) (S k) ->
  map_linear_colour x mn mx m = Ok_ (lerp a b ((x - knot mn mx (length m) k) /
        (knot mn mx (length m) (S k) - knot mn mx (length m) k))).
Proof.
  intros Hm Ha Hb Hx.
  assert (Hn : (S k < length m)%nat) by (apply nth_error_Some; congruence).
  assert (Hn2 : (2 <= length m)%nat) by lia.
  pose proof (knot_mono mn mx (length m) k (S k) Hn2 Hm ltac:(lia)) as Hk.
  pose proof (knot_le mn mx (length m) 0 k Hn2 Hm ltac:(lia)) as Hk0. rewrite knot_0 in Hk0.
  pose proof (knot_le mn mx (length m) (S k) (length m - 1) Hn2 Hm ltac:(lia)) as Hk1.
  rewrite knot_last in Hk1 by assumption.
  destruct (Rle_dec x mn) as [Hlo|Hlo].
  { (* x = mn, k = 0 *)
    assert (knot mn mx (length m) k = mn) as E by lra.
    assert (k = 0)%nat as ->.
    { destruct k; [reflexivity|]. pose proof (knot_mono mn mx (length m) 0 (S k) Hn2 Hm ltac:(lia)) as Q.
      rewrite knot_0 in Q. lra. }
    rewrite map_low; [|intros ->; discriminate|assumption].
    rewrite Ha. cbn [of_opt]. replace (x - knot mn mx (length m) 0) with 0 by lra.
    unfold Rdiv; rewrite Rmult_0_l, lerp_0. reflexivity. }
  destruct (Rle_dec mx x) as [Hhi|Hhi].
  { assert (knot mn mx (length m) (S k) = mx) as E by lra.
    assert (S k = length m - 1)%nat as Ek.
    { destruct (Nat.eq_dec (S k) (length m - 1)) as [|Hne]; [assumption|].
      pose proof (knot_mono mn mx (length m) (S k) (length m - 1) Hn2 Hm ltac:(lia)) as Q.
      rewrite knot_last in Q by assumption. lra. }
    rewrite map_high; [|intros ->; discriminate|lra|assumption].
    rewrite <- Ek, Hb. cbn [of_opt].
    replace (x - knot mn mx (length m) k) with (knot mn mx (length m) (S k) - knot mn mx (length m) k) by lra.
    unfold Rdiv. rewrite Rinv_r by lra. rewrite lerp_1. reflexivity. }
  destruct (map_mid x mn mx m Hn2 ltac:(lra)) as (j & a' & b' & Hj & Ha' & Hb' & Hxj & ->).
  destruct (lt_eq_lt_dec j k) as [[Hlt|Heq]|Hgt].
  - (* x <= knot (S j) <= knot k <= x *)
    pose proof (knot_le mn mx (length m) (S j) k Hn2 Hm ltac:(lia)) as Q.
    assert (Ex : x = knot mn mx (length m) k) by lra.
    assert (S j = k) as Ejk.
    { destruct (Nat.eq_dec (S j) k); [assumption|].
      pose proof (knot_mono mn mx (length m) (S j) k Hn2 Hm ltac:(lia)). lra. }
    subst k. rewrite Ha in Hb'. injection Hb' as <-.
    replace ((x - knot mn mx (length m) (S j))) with 0 by lra.
    unfold Rdiv; rewrite Rmult_0_l, lerp_0. f_equal. rewrite Ex, Rinv_r; [apply lerp_1|].
    pose proof (knot_mono mn mx (length m) j (S j) Hn2 Hm ltac:(lia)). lra.
  - subst j. rewrite Ha in Ha'. rewrite Hb in Hb'. injection Ha' as <-. injection Hb' as <-. reflexivity.
  - exfalso. pose proof (knot_le mn mx (length m) (S k) j Hn2 Hm ltac:(lia)). lra.
Qed.

Lemma map_total (x mn mx : R) (m : list SpecR) : (2 <= length m)%nat -> mn < mx ->
  exists c, map_linear_colour x mn mx m = Ok_ c.
Proof.
  intros Hn Hm. assert (m <> []) by (intros ->; cbn in Hn; lia).
  destruct (Rle_dec x mn).
  { rewrite map_low by assumption. destruct (nth_error m 0) eqn:E; [eexists; reflexivity|].
    apply nth_error_None in E. lia. }
  destruct (Rle_dec mx x).
  { rewrite map_high by (try assumption; lra).
    destruct (nth_error m (length m - 1)) eqn:E; [eexists; reflexivity|].
    apply nth_error_None in E. lia. }
  destruct (map_mid x mn mx m Hn ltac:(lra)) as (j & a' & b' & Hj & Ha' & Hb' & Hxj & ->). eauto.
Qed.

(** convexity: any interval containing the entries of the map contains its values *)

Lemma lerp_range lo hi a b w : in_range lo hi a -> in_range lo hi b -> 0 <= w <= 1 -> in_range lo hi (lerp a b w).
Proof.
  dspec. unfold in_range, lerp; cbn [sr sg sb]; intros ([? ?]&[? ?]&[? ?]) ([? ?]&[? ?]&[? ?]) [? ?]; repeat split; nra.
Qed.

Lemma map_range (x mn mx lo hi : R) (m : list SpecR) c :
  mn < mx -> Forall (in_range lo hi) m ->
  map_linear_colour x mn mx m = Ok_ c -> in_range lo hi c.
Proof.
  intros Hm HF Hc. rewrite Forall_forall in HF.
  destruct m as [|s [|s' m]].
  - unfold map_linear_colour in Hc; rsimp. revert Hc. repeat rcase; discriminate.
  - assert (c = s); [|subst; apply HF; left; reflexivity].
    unfold map_linear_colour in Hc; rsimp. revert Hc. repeat rcase; cbn; congruence.
  - set (mm := s :: s' :: m) in *. assert (Hn : (2 <= length mm)%nat) by (cbn; lia).
    destruct (Rle_dec x mn).
    { rewrite map_low in Hc by (try assumption; discriminate). injection Hc as <-. apply HF; left; reflexivity. }
    destruct (Rle_dec mx x).
    { rewrite map_high in Hc by (try assumption; try discriminate; lra).
      destruct (nth_error mm (length mm - 1)) eqn:E; [|discriminate].
      injection Hc as <-. apply HF. apply nth_error_In in E. assumption. }
    destruct (map_mid x mn mx mm Hn ltac:(lra)) as (j & a & b & Hj & Ha & Hb & Hx & E).
    clearbody mm. rewrite E in Hc. inversion Hc as [Hc']. clear Hc Hc'.
    pose proof (knot_mono mn mx (length mm) j (S j) Hn Hm ltac:(lia)) as Hk.
    apply lerp_range; [apply HF; eapply nth_error_In; eassumption ..|].
    split.
    + apply Rmult_le_pos; [lra|]. left; apply Rinv_0_lt_compat; lra.
    + apply Rmult_le_reg_r with (knot mn mx (length mm) (S j) - knot mn mx (length mm) j); [lra|].
      unfold Rdiv; rewrite Rmult_assoc, Rinv_l by lra. lra.
Qed.

(** ** The shipped tables *)
Definition row_ok (r : zrow) : bool :=
  let '(a, b, c) := r in
  ((0 <=? a) && (a <=? Z.pos table_den) && (0 <=? b) && (b <=? Z.pos table_den) && (0 <=? c) && (c <=? Z.pos table_den))%Z.

Lemma tables_ok : forallb (fun t => Nat.eqb (length t) 256 && forallb row_ok t) tables = true.
Proof. vm_compute. reflexivity. Qed.

Lemma table_in_range t : In t tables -> length t = 256%nat /\ Forall (in_range 0 1) (map (rowN (N := NumR)) t).
Proof.
  intros H. pose proof tables_ok as T. rewrite forallb_forall in T. specialize (T t H).
  apply andb_prop in T as [T1 T2]. apply Nat.eqb_eq in T1. split; [assumption|].
  rewrite forallb_forall in T2. apply Forall_forall. intros c Hc. apply in_map_iff in Hc as (r & <- & Hr).
  specialize (T2 r Hr). destruct r as [[a b] c]. unfold row_ok in T2.
  assert (A : forall z, (0 <=? z)%Z = true -> (z <=? Z.pos table_den)%Z = true -> 0 <= IZR z / IZR (Z.pos table_den) <= 1).
  { intros z Hz1 Hz2. apply Z.leb_le in Hz1, Hz2. apply IZR_le in Hz1, Hz2.
    assert (0 < IZR (Z.pos table_den)) by (apply IZR_lt; reflexivity).
    split; [apply Rmult_le_pos; [assumption|left; apply Rinv_0_lt_compat; assumption]|].
    apply Rmult_le_reg_r with (IZR (Z.pos table_den)); [assumption|].
    unfold Rdiv; rewrite Rmult_assoc, Rinv_l by lra. lra. }
  unfold in_range, rowN; cbn [sr sg sb]; rsimp. repeat match goal with K : (_ && _)%bool = true |- _ => apply andb_prop in K as [K ?] end.
  repeat split; apply A; assumption.
Qed.

Lemma shipped_scale_ok (x mn mx : R) t : In t tables -> mn < mx ->
  exists c, map_linear_colour x mn mx (map rowN t) = Ok_ c /\ in_range 0 1 c.
Proof.
  intros Ht Hm. destruct (table_in_range t Ht) as [HL HR].
  destruct (map_total x mn mx (map rowN t)) as [c Hc]; [rewrite map_length, HL; lia|assumption|].
  exists c. split; [assumption|]. eapply map_range; eassumption.
Qed.

(** ** Panics *)
(** a scale with a single colour panics strictly inside the range, in every arithmetic *)
Lemma singleton_panics {N : Num} (x mn mx : F) (c : Spectrum) :
  fleb x mn = false -> fleb mx x = false -> map_linear_colour x mn mx [c] = Panic.
Proof. intros H1 H2. unfold map_linear_colour. rewrite H1, H2. reflexivity. Qed.

(** an unordered (NaN) value panics in every arithmetic and for every scale *)
Lemma find_bin_unordered {N : Num} (x mn d : F) : (forall y, fleb x y = false) ->
  forall fuel i, find_bin fuel i x mn d = None.
Proof. intros H. induction fuel as [|fuel IH]; intros i; cbn [find_bin]; [reflexivity|]. rewrite H. apply IH. Qed.
Lemma unordered_panics {N : Num} (x mn mx : F) m :
  (forall y, fleb x y = false) -> fleb mx x = false -> map_linear_colour x mn mx m = Panic.
Proof.
  intros H H'. unfold map_linear_colour. rewrite H, H'. destruct (Nat.eqb (length m) 0); [reflexivity|].
  rewrite find_bin_unordered by assumption. reflexivity.
Qed.
Lemma nan_unordered : forall y, fleb (Num := NumSF) S754_nan y = false.
Proof. destruct y; reflexivity. Qed.
Lemma nan_panics (mn mx : @F NumSF) m : map_linear_colour (N := NumSF) S754_nan mn mx m = Panic.
Proof. apply unordered_panics; [apply nan_unordered|]. destruct mx as [?|[]| |? ? ?]; reflexivity. Qed.

(** a finite binary64 value strictly between finite min and max for which `unreachable!()` is reached *)
Definition sf_pred (x : spec_float) : spec_float := SFpred prec emax x.
Lemma rounding_panics :
  let mn := sf_lit 651 10 in let mx := sf_lit 4851 10 in let x := sf_pred mx in
  fltb (Num := NumSF) mn x = true /\ fltb (Num := NumSF) x mx = true /\
  forallb (fun t => match map_linear_colour (N := NumSF) x mn mx (map rowN t) with Panic => true | _ => false end) tables = true.
Proof. vm_compute. repeat split. Qed.
