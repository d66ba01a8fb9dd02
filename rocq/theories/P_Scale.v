(** * Property C88: the colour scales are continuous (with a rate), and the perceptual ones keep the order of brightness *)
From Verif Require Import NumR Colour Colourmap ColourTables SpecColour ColourProofs ColourmapProofs P_Colour.
Open Scope R_scope.

(** two colours differ by at most d in every channel *)
Definition near (d : R) (a b : SpecR) : Prop := Rabs (sr a - sr b) <= d /\ Rabs (sg a - sg b) <= d /\ Rabs (sb a - sb b) <= d.
(** the perceptual scales; the other shipped one is Radiance's *)
Definition perceptual : list (list zrow) := [inferno_table; magma_table; plasma_table; viridis_table].

(** ** from the segments of a line to the whole *)
Lemma glue (P : R -> R -> Prop) (k : nat -> R) : (forall x y z, x <= y -> y <= z -> P x y -> P y z -> P x z) ->
  forall n, (forall i, (i < n)%nat -> k i <= k (S i) /\ forall x y, k i <= x -> x <= y -> y <= k (S i) -> P x y) ->
  (forall x, P x x) -> forall x y, k 0%nat <= x -> x <= y -> y <= k n -> P x y.
Proof.
  intros HT n. induction n as [|n IH]; intros HS HR x y H1 H2 H3.
  - replace y with x by lra. apply HR.
  - destruct (HS n ltac:(lia)) as [K1 K2]. assert (HS' : forall i, (i < n)%nat -> k i <= k (S i) /\ forall x y, k i <= x -> x <= y -> y <= k (S i) -> P x y) by (intros i Hi; apply HS; lia).
    destruct (Rle_dec y (k n)) as [A|A]; [apply IH; assumption|].
    destruct (Rle_dec x (k n)) as [B|B]; [|apply K2; lra].
    apply (HT x (k n) y); [lra|lra|apply IH; auto; lra|apply K2; lra].
Qed.

Lemma knot_first (mn mx : R) n : knot mn mx n 0 = mn.
Proof. unfold knot. cbn [INR]. lra. Qed.
Lemma knot_last (mn mx : R) n : (2 <= n)%nat -> knot mn mx n (n - 1) = mx.
Proof. intros H. unfold knot. assert (0 < INR (n - 1)) by (apply lt_0_INR; lia). field. lra. Qed.
Lemma knot_step (mn mx : R) n i : knot mn mx n (S i) - knot mn mx n i = (mx - mn) / INR (n - 1).
Proof. unfold knot. rewrite S_INR. ring. Qed.

(** a reading of colours that respects mixing: a channel, or the brightness *)
Definition mixes (f : SpecR -> R) : Prop := forall a b w, f (lerp a b w) = (1 - w) * f a + w * f b.
Lemma mixes_r : mixes sr. Proof. intros a b w. reflexivity. Qed.
Lemma mixes_g : mixes sg. Proof. intros a b w. reflexivity. Qed.
Lemma mixes_b : mixes sb. Proof. intros a b w. reflexivity. Qed.
Lemma mixes_radiance : mixes radiance. Proof. intros a b w. rewrite !radiance_value. unfold lerp. cbn [sr sg sb]. rsimp. ring. Qed.

Section Line.
  Context (f : SpecR -> R) (HM : mixes f) (mn mx : R) (m : list SpecR) (HL : (2 <= length m)%nat) (HB : mn < mx).
  Definition reading (x : R) : R := match map_linear_colour x mn mx m with Ok_ c => f c | Panic => 0 end.
  Let step := (mx - mn) / INR (length m - 1).
  Lemma step_pos : 0 < step.
  Proof. unfold step. apply Rdiv_lt_0_compat; [lra|apply lt_0_INR; lia]. Qed.
  Lemma reading_segment i a b x : nth_error m i = Some a -> nth_error m (S i) = Some b ->
    knot mn mx (length m) i <= x <= knot mn mx (length m) (S i) -> reading x = f a + (f b - f a) * ((x - knot mn mx (length m) i) / step).
  Proof.
    intros HA HB' HX. unfold reading. rewrite (C33_polyline x mn mx m i a b) by assumption. rewrite HM, knot_step. fold step. ring.
  Qed.
  Lemma segment_ends i : (i < length m - 1)%nat -> exists a b, nth_error m i = Some a /\ nth_error m (S i) = Some b.
  Proof.
    intros H. destruct (nth_error m i) as [a|] eqn:A; [|apply nth_error_None in A; lia].
    destruct (nth_error m (S i)) as [b|] eqn:B; [|apply nth_error_None in B; lia]. eauto.
  Qed.
  Lemma nonempty : m <> [].
  Proof. intros D. rewrite D in HL. cbn in HL. lia. Qed.
  Lemma reading_low x : x <= mn -> reading x = reading mn.
  Proof. intros H. unfold reading. rewrite !map_low by (first [apply nonempty | lra]). reflexivity. Qed.
  Lemma reading_high x : mx <= x -> reading x = reading mx.
  Proof. intros H. unfold reading. rewrite !map_high by (first [apply nonempty | lra]). reflexivity. Qed.
  Lemma segments (P : R -> R -> Prop) : (forall x y z, x <= y -> y <= z -> P x y -> P y z -> P x z) -> (forall x, P x x) ->
    (forall i a b x y, nth_error m i = Some a -> nth_error m (S i) = Some b -> knot mn mx (length m) i <= x -> x <= y -> y <= knot mn mx (length m) (S i) -> P x y) ->
    forall x y, mn <= x -> x <= y -> y <= mx -> P x y.
  Proof.
    intros HT HR HS. pose proof (glue P (knot mn mx (length m)) HT (length m - 1)) as G. rewrite knot_first, knot_last in G by exact HL. apply G; [|exact HR].
    intros i Hi. split; [pose proof (knot_step mn mx (length m) i) as K; fold step in K; pose proof step_pos; lra|].
    destruct (segment_ends i Hi) as (a & b & A & B). intros x y. apply (HS i a b); assumption.
  Qed.

  Lemma reading_rate D : 0 <= D -> (forall i a b, nth_error m i = Some a -> nth_error m (S i) = Some b -> Rabs (f a - f b) <= D) ->
    forall x y, Rabs (reading x - reading y) <= D / step * Rabs (x - y).
  Proof.
    intros D0 HD. pose proof step_pos as SP. assert (DP : 0 <= D / step) by (apply Rmult_le_pos; [exact D0|left; apply Rinv_0_lt_compat; exact SP]).
    assert (INN : forall x y, mn <= x -> x <= y -> y <= mx -> Rabs (reading x - reading y) <= D / step * (y - x)).
    { apply (segments (fun x y => Rabs (reading x - reading y) <= D / step * (y - x))).
      - intros x y z _ _ A B. replace (reading x - reading z) with ((reading x - reading y) + (reading y - reading z)) by ring.
        eapply Rle_trans; [apply Rabs_triang|]. lra.
      - intros x. rewrite Rminus_diag_eq, Rabs_R0 by reflexivity. lra.
      - intros i a b x y A B H1 H2 H3. rewrite (reading_segment i a b x A B), (reading_segment i a b y A B) by lra.
        replace (f a + (f b - f a) * ((x - knot mn mx (length m) i) / step) - (f a + (f b - f a) * ((y - knot mn mx (length m) i) / step)))
          with ((f a - f b) * ((y - x) / step)) by (field; lra).
        rewrite Rabs_mult, (Rabs_pos_eq ((y - x) / step)) by (apply Rmult_le_pos; [lra|left; apply Rinv_0_lt_compat; exact SP]).
        replace (D / step * (y - x)) with (D * ((y - x) / step)) by (field; lra).
        apply Rmult_le_compat_r; [apply Rmult_le_pos; [lra|left; apply Rinv_0_lt_compat; exact SP]|apply (HD i); assumption]. }
    assert (Q : forall z, reading z = reading (Rmin (Rmax z mn) mx)).
    { intros z. unfold Rmin, Rmax. destruct (Rle_dec z mn) as [A|A].
      - destruct (Rle_dec mn mx) as [B|B]; [apply reading_low; exact A|lra].
      - destruct (Rle_dec z mx) as [B|B]; [reflexivity|apply reading_high; lra]. }
    assert (ALL : forall x y, x <= y -> Rabs (reading x - reading y) <= D / step * (y - x)).
    { intros x y H. set (x' := Rmin (Rmax x mn) mx). set (y' := Rmin (Rmax y mn) mx).
      assert (QX : reading x = reading x') by apply Q. assert (QY : reading y = reading y') by apply Q.
      assert (B : mn <= x' /\ x' <= y' /\ y' <= mx /\ y' - x' <= y - x).
      { unfold x', y', Rmax. destruct (Rle_dec x mn), (Rle_dec y mn); unfold Rmin; repeat match goal with |- context [Rle_dec ?a ?b] => destruct (Rle_dec a b) end; lra. }
      rewrite QX, QY. destruct B as (B1 & B2 & B3 & B4). eapply Rle_trans; [apply INN; assumption|]. apply Rmult_le_compat_l; [exact DP|exact B4]. }
    intros x y. destruct (Rle_dec x y) as [H|H].
    - rewrite (Rabs_minus_sym x y), (Rabs_pos_eq (y - x)) by lra. apply ALL. exact H.
    - rewrite (Rabs_minus_sym (reading x)), (Rabs_pos_eq (x - y)) by lra. apply ALL. lra.
  Qed.
  Lemma reading_increasing : (forall i a b, nth_error m i = Some a -> nth_error m (S i) = Some b -> f a < f b) ->
    forall x y, mn <= x -> x < y -> y <= mx -> reading x < reading y.
  Proof.
    intros HI x y H1 H2 H3. pose proof step_pos as SP.
    refine (segments (fun x y => x < y -> reading x < reading y) _ _ _ x y H1 ltac:(lra) H3 H2).
    - intros a b c A B P1 P2 L. destruct (Req_dec a b) as [->|N]; [apply P2; exact L|]. destruct (Req_dec b c) as [<-|M]; [apply P1; exact L|].
      apply Rlt_trans with (reading b); [apply P1|apply P2]; lra.
    - intros a L. lra.
    - intros i a b u v A B K1 K2 K3 L. rewrite (reading_segment i a b u A B), (reading_segment i a b v A B) by lra.
      apply Rplus_lt_compat_l. apply Rmult_lt_compat_l; [pose proof (HI i a b A B); lra|].
      apply Rmult_lt_compat_r; [apply Rinv_0_lt_compat; exact SP|lra].
  Qed.
End Line.

(** ** C88 *)
(** if neighbouring entries of a scale differ by at most D in each channel, the colours of two values differ by at most
    D times the number of entries that fit between the values *)
Theorem C88_rate : forall (m : list SpecR) (mn mx D x y : R) cx cy, (2 <= length m)%nat -> mn < mx ->
  (forall i a b, nth_error m i = Some a -> nth_error m (S i) = Some b -> near D a b) ->
  map_linear_colour x mn mx m = Ok_ cx -> map_linear_colour y mn mx m = Ok_ cy ->
  near (D * (INR (length m - 1) * (Rabs (x - y) / (mx - mn)))) cx cy.
Proof.
  intros m mn mx D x y cx cy HL HB HD HX HY.
  assert (D0 : 0 <= D).
  { destruct (segment_ends m HL 0 ltac:(lia)) as (a & b & A & B). destruct (HD 0%nat a b A B) as [K _]. eapply Rle_trans; [apply Rabs_pos|exact K]. }
  assert (IP : 0 < INR (length m - 1)) by (apply lt_0_INR; lia).
  assert (G : forall f, mixes f -> (forall i a b, nth_error m i = Some a -> nth_error m (S i) = Some b -> Rabs (f a - f b) <= D) ->
    Rabs (f cx - f cy) <= D * (INR (length m - 1) * (Rabs (x - y) / (mx - mn)))).
  { intros f HM HF. pose proof (reading_rate f HM mn mx m HL HB D D0 HF x y) as K. unfold reading in K. rewrite HX, HY in K.
    eapply Rle_trans; [exact K|]. right. field. split; lra. }
  split; [|split]; apply G; [apply mixes_r| |apply mixes_g| |apply mixes_b| ]; intros i a b A B; apply (HD i a b A B).
Qed.
Print Assumptions C88_rate.

Definition dist_ok (d : Z) (r s : zrow) : bool := let '(a, b, c) := r in let '(a', b', c') := s in ((Z.abs (a - a') <=? d) && (Z.abs (b - b') <=? d) && (Z.abs (c - c') <=? d))%Z.
Definition weigh (r : zrow) : Z := let '(a, b, c) := r in (265 * a + 670 * b + 65 * c)%Z.
Fixpoint steps {A} (p : A -> A -> bool) (l : list A) : bool := match l with a :: (b :: _) as t => p a b && steps p t | _ => true end.
Lemma steps_nth {A} (p : A -> A -> bool) l : steps p l = true -> forall i a b, nth_error l i = Some a -> nth_error l (S i) = Some b -> p a b = true.
Proof.
  induction l as [|x l IH]; intros H i a b HA HB; [destruct i; discriminate|]. destruct l as [|y l]; [destruct i as [|[|i]]; discriminate|].
  cbn [steps] in H. apply andb_prop in H as [H1 H2]. destruct i as [|i]; [cbn in HA, HB; congruence|]. apply (IH H2 i); assumption.
Qed.
Lemma tables_near : forallb (steps (dist_ok 23440000000)) tables = true.
Proof. vm_compute. reflexivity. Qed.
Lemma perceptual_rise : forallb (steps (fun r s => weigh r <? weigh s)%Z) perceptual = true.
Proof. vm_compute. reflexivity. Qed.
Lemma den_pos : 0 < IZR (Z.pos table_den). Proof. apply IZR_lt. reflexivity. Qed.
Lemma channel_near d z z' : (Z.abs (z - z') <=? d)%Z = true -> Rabs (IZR z / IZR (Z.pos table_den) - IZR z' / IZR (Z.pos table_den)) <= IZR d / IZR (Z.pos table_den).
Proof.
  intros H. apply Z.leb_le in H. apply IZR_le in H. rewrite abs_IZR, minus_IZR in H. pose proof den_pos as P.
  replace (IZR z / IZR (Z.pos table_den) - IZR z' / IZR (Z.pos table_den)) with ((IZR z - IZR z') * / IZR (Z.pos table_den)) by (field; lra).
  rewrite Rabs_mult, (Rabs_pos_eq (/ _)) by (left; apply Rinv_0_lt_compat; exact P). apply Rmult_le_compat_r; [left; apply Rinv_0_lt_compat; exact P|exact H].
Qed.
(** the shipped scales: over the whole range a channel changes at a rate of at most 6 per range *)
Theorem C88_shipped : forall t (mn mx x y : R) cx cy, In t tables -> mn < mx ->
  map_linear_colour x mn mx (map rowN t) = Ok_ cx -> map_linear_colour y mn mx (map rowN t) = Ok_ cy ->
  near (6 * (Rabs (x - y) / (mx - mn))) cx cy.
Proof.
  intros t mn mx x y cx cy HT HB HX HY. destruct (table_in_range t HT) as [HL _].
  assert (R0 : 0 <= Rabs (x - y) / (mx - mn)) by (apply Rmult_le_pos; [apply Rabs_pos|left; apply Rinv_0_lt_compat; lra]).
  assert (HD : forall i a b, nth_error (map (rowN (N := NumR)) t) i = Some a -> nth_error (map rowN t) (S i) = Some b -> near (2344 / 100000) a b).
  { intros i a b HA HB'. rewrite nth_error_map in HA, HB'. destruct (nth_error t i) as [[[a1 a2] a3]|] eqn:A; [|discriminate]. destruct (nth_error t (S i)) as [[[b1 b2] b3]|] eqn:B; [|discriminate].
    cbn [option_map] in HA, HB'. assert (QA : a = rowN (a1, a2, a3)) by congruence. assert (QB : b = rowN (b1, b2, b3)) by congruence. subst a b.
    pose proof tables_near as T. rewrite forallb_forall in T. pose proof (steps_nth _ _ (T t HT) i _ _ A B) as K. unfold dist_ok in K.
    apply andb_prop in K as [K K3]. apply andb_prop in K as [K1 K2].
    assert (Q : IZR 23440000000 / IZR (Z.pos table_den) = 2344 / 100000) by (unfold table_den; lra).
    unfold near, rowN. cbn [sr sg sb]. rsimp. rewrite <- Q. repeat split; apply channel_near; assumption. }
  assert (L : length (map (rowN (N := NumR)) t) = 256%nat) by (rewrite map_length; exact HL).
  pose proof (C88_rate (map rowN t) mn mx (2344 / 100000) x y cx cy ltac:(rewrite L; lia) HB HD HX HY) as K. rewrite L in K.
  replace (INR (256 - 1)) with 255 in K by (rewrite INR_IZR_INZ; reflexivity).
  destruct K as (K1 & K2 & K3). repeat split; (eapply Rle_trans; [eassumption|]); nra.
Qed.
Print Assumptions C88_shipped.

(** with the perceptual scales a larger value is shown brighter, strictly so inside the range *)
Theorem C88_brightness : forall t (mn mx x y : R) cx cy, In t perceptual -> mn < mx ->
  map_linear_colour x mn mx (map rowN t) = Ok_ cx -> map_linear_colour y mn mx (map rowN t) = Ok_ cy ->
  (mn <= x -> x < y -> y <= mx -> radiance cx < radiance cy) /\ (x <= y -> radiance cx <= radiance cy).
Proof.
  intros t mn mx x y cx cy HP HB HX HY. assert (HT : In t tables) by (destruct HP as [<-|[<-|[<-|[<-|[]]]]]; unfold tables; cbn [In]; tauto).
  destruct (table_in_range t HT) as [HL' _]. assert (HL : (2 <= length (map (rowN (N := NumR)) t))%nat) by (rewrite map_length, HL'; lia).
  assert (HI : forall i a b, nth_error (map (rowN (N := NumR)) t) i = Some a -> nth_error (map rowN t) (S i) = Some b -> radiance a < radiance b).
  { intros i a b HA HB'. rewrite nth_error_map in HA, HB'. destruct (nth_error t i) as [[[a1 a2] a3]|] eqn:A; [|discriminate]. destruct (nth_error t (S i)) as [[[b1 b2] b3]|] eqn:B; [|discriminate].
    cbn [option_map] in HA, HB'. assert (QA : a = rowN (a1, a2, a3)) by congruence. assert (QB : b = rowN (b1, b2, b3)) by congruence. subst a b.
    pose proof perceptual_rise as T. rewrite forallb_forall in T. pose proof (steps_nth _ _ (T t HP) i _ _ A B) as K. cbn beta in K. unfold weigh in K.
    apply Z.ltb_lt in K. apply IZR_lt in K. rewrite !plus_IZR, !mult_IZR in K. rewrite !radiance_value. unfold rowN. cbn [sr sg sb]. rsimp. pose proof den_pos as P.
    set (d := IZR (Z.pos table_den)) in *. apply Rmult_lt_reg_r with (1000 * d); [lra|].
    replace ((265 / 1000 * (IZR a1 / d) + 67 / 100 * (IZR a2 / d) + 65 / 1000 * (IZR a3 / d)) * (1000 * d)) with (265 * IZR a1 + 670 * IZR a2 + 65 * IZR a3) by (field; lra).
    replace ((265 / 1000 * (IZR b1 / d) + 67 / 100 * (IZR b2 / d) + 65 / 1000 * (IZR b3 / d)) * (1000 * d)) with (265 * IZR b1 + 670 * IZR b2 + 65 * IZR b3) by (field; lra).
    exact K. }
  pose proof (reading_increasing radiance mixes_radiance mn mx (map rowN t) HL HB HI) as INC.
  set (g := reading radiance mn mx (map rowN t)) in *.
  assert (GX : g x = radiance cx) by (unfold g, reading; rewrite HX; reflexivity). assert (GY : g y = radiance cy) by (unfold g, reading; rewrite HY; reflexivity).
  split; [intros A B C; rewrite <- GX, <- GY; apply INC; assumption|].
  intros H. set (x' := Rmin (Rmax x mn) mx). set (y' := Rmin (Rmax y mn) mx).
  assert (Q : forall z, g z = g (Rmin (Rmax z mn) mx)).
  { intros z. unfold Rmin, Rmax. destruct (Rle_dec z mn) as [A|A].
    - destruct (Rle_dec mn mx) as [B|B]; [apply (reading_low radiance mn mx _ HL); exact A|lra].
    - destruct (Rle_dec z mx) as [B|B]; [reflexivity|apply (reading_high radiance mn mx _ HL HB); lra]. }
  rewrite <- GX, <- GY, (Q x), (Q y). fold x' y'.
  assert (B : mn <= x' /\ x' <= y' /\ y' <= mx).
  { unfold x', y', Rmax. destruct (Rle_dec x mn), (Rle_dec y mn); unfold Rmin; repeat match goal with |- context [Rle_dec ?a ?b] => destruct (Rle_dec a b) end; lra. }
  destruct (Rle_lt_or_eq_dec x' y' (proj1 (proj2 B))) as [L|L]; [left; apply INC; tauto|rewrite L; right; reflexivity].
Qed.
Print Assumptions C88_brightness.
(** Radiance's own scale does not keep the order: a larger value is shown darker *)
Theorem C88_radiance_scale_refuted : exists x y cx cy : _, 0 <= x /\ x < y /\ y <= 1 /\
  map_linear_colour (x : R) (0 : R) (1 : R) (map rowN radiance_table) = Ok_ cx /\ map_linear_colour (y : R) (0 : R) (1 : R) (map rowN radiance_table) = Ok_ cy /\
  radiance cy < radiance cx.
Proof.
  assert (L : length (map (rowN (N := NumR)) radiance_table) = 256%nat) by reflexivity.
  assert (Q : INR (256 - 1) = 255) by (rewrite INR_IZR_INZ; reflexivity).
  assert (K0 : knot 0 1 256 0 = 0) by apply knot_first.
  assert (K1 : knot 0 1 256 1 = / 255) by (unfold knot; rewrite Q; cbn [INR]; lra).
  exists 0, (/ 255). do 2 eexists. split; [lra|]. split; [lra|]. split; [lra|].
  split; [apply (C33_polyline 0 0 1 (map rowN radiance_table) 0 _ _ ltac:(lra) eq_refl eq_refl); rewrite L, K0, K1; lra|].
  split; [apply (C33_polyline (/ 255) 0 1 (map rowN radiance_table) 0 _ _ ltac:(lra) eq_refl eq_refl); rewrite L, K0, K1; lra|].
  rewrite L, K0, K1, !mixes_radiance, !radiance_value. unfold rowN. cbn [sr sg sb]. rsimp. unfold table_den. lra.
Qed.
Print Assumptions C88_radiance_scale_refuted.
Example C88_hyp : In viridis_table perceptual /\ 0 < 1 /\
  exists cx cy, map_linear_colour ((1/3) : R) (0 : R) (1 : R) (map rowN viridis_table) = Ok_ cx /\ map_linear_colour ((1/2) : R) (0 : R) (1 : R) (map rowN viridis_table) = Ok_ cy.
Proof.
  split; [unfold perceptual; cbn [In]; tauto|]. split; [lra|].
  destruct (C33_shipped_scales (1/3) 0 1 viridis_table ltac:(do 4 right; left; reflexivity) ltac:(lra)) as (cx & A & _).
  destruct (C33_shipped_scales (1/2) 0 1 viridis_table ltac:(do 4 right; left; reflexivity) ltac:(lra)) as (cy & B & _). exists cx, cy. exact (conj A B).
Qed.
