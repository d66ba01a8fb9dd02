(** * FloatBoxes: the boxes of the accelerator in binary64, and a box test that may err along the edges *)
From Coq Require Import ZArith SpecFloat Reals Lra Lia Psatz Permutation.
From Flocq Require Import Core BinarySingleNaN Relative.
From Verif Require Import Num NumR NumSF SFBridge FloatOps FloatRound FloatError Geometry Triangle SpecGeom TriangleProofs
  Ray Bvh BvhProofs BvhOrder BvhReal2 BvhFloat P_Bvh P_Float P_FloatHit.
#[local] Existing Instance Hprec.
#[local] Existing Instance Hmax.
#[local] Existing Instance valid64.

(** ** every box encloses what is below it, in any arithmetic where unions do *)
Section AnyBoxes.
  Context {N : Num} {E : Ext}.
  Hypothesis HP : perm_sorts E.
  Variables (ok : BBox -> Prop) (inside : BBox -> BBox -> Prop).
  Hypothesis inside_refl : forall a, ok a -> inside a a.
  Hypothesis inside_trans : forall a b c, inside a b -> inside b c -> inside a c.
  Hypothesis union_ok : forall a b, ok a -> ok b -> ok (box_union a b) /\ inside a (box_union a b) /\ inside b (box_union a b).

  Fixpoint any_encl (prims : list Triangle) (nd : Node) : Prop :=
    match nd with
    | Leaf b first n => ok b /\ forall j t, (first <= j < first + n)%nat -> nth_error prims j = Some t -> inside (world_bounds t) b
    | Inner b _ c1 c2 => ok b /\ any_encl prims c1 /\ any_encl prims c2 /\ inside (node_bounds c1) b /\ inside (node_bounds c2) b
    end.
  Lemma any_encl_ok prims nd : any_encl prims nd -> ok (node_bounds nd).
  Proof. destruct nd; cbn; tauto. Qed.
  Lemma any_encl_ext prims extra nd : in_prims prims nd -> any_encl prims nd -> any_encl (prims ++ extra) nd.
  Proof.
    induction nd as [b first n|b ax c1 IH1 c2 IH2]; cbn [in_prims any_encl].
    - intros HI (HO & H). split; [exact HO|]. intros j t Hj Ht. rewrite nth_error_app1 in Ht by lia. eauto.
    - intros [I1 I2] (HO & H1 & H2 & H3 & H4). auto.
  Qed.
  Lemma any_union_fold (rest : list ObjectInfo) : Forall (fun x => ok (oi_bounds x)) rest -> forall b, ok b ->
    let r := fold_left (fun b x => box_union b (oi_bounds x)) rest b in
    ok r /\ inside b r /\ forall x, In x rest -> inside (oi_bounds x) r.
  Proof.
    induction 1 as [|y rest Oy HF IH]; intros b Ob; cbn [fold_left].
    - cbv zeta. split; [exact Ob|]. split; [apply inside_refl, Ob|intros x []].
    - destruct (union_ok _ _ Ob Oy) as (U1 & U2 & U3). destruct (IH _ U1) as (I1 & I2 & I3). cbv zeta in *. split; [exact I1|].
      split; [eapply inside_trans; eassumption|]. intros x [<-|Hx]; [eapply inside_trans; eassumption|apply I3, Hx].
  Qed.
  Lemma any_push_tri scene infos : forall ord ord', Forall (any_describes scene) infos -> push_all scene infos ord = Some ord' ->
    exists ts, a_tri ord' = a_tri ord ++ ts /\ Forall2 (fun x t => x = object_info (oi_index x) t) infos ts.
  Proof.
    induction infos as [|x infos IH]; intros ord ord' HF H; cbn [push_all] in H.
    - injection H as <-. exists []. rewrite app_nil_r. split; [reflexivity|constructor].
    - inversion HF as [|? ? (t & Ht & Hx) HF']; subst.
      destruct (push_one scene (oi_index x) ord) as [o|] eqn:P; [|discriminate].
      assert (Ho : a_tri o = a_tri ord ++ [t]).
      { unfold push_one in P. rewrite Ht in P.
        destruct (nth_error (a_back scene) (oi_index x)); [|discriminate].
        destruct (nth_error (a_front scene) (oi_index x)); [|discriminate].
        destruct (nth_error (a_norm scene) (oi_index x)); [|discriminate].
        injection P as <-. reflexivity. }
      destruct (IH _ _ HF' H) as (ts & E1 & E2). exists (t :: ts). split; [|constructor; assumption].
      rewrite E1, Ho, <- app_assoc. reflexivity.
  Qed.
  Lemma any_build_grows scene : forall fuel infos ord nd ord', aligned ord ->
    recursive_build fuel scene infos ord = Ret (nd, ord') -> exists ts, a_tri ord' = a_tri ord ++ ts.
  Proof.
    intros fuel infos ord nd ord' Ha H. destruct (build_spec HP _ _ _ _ _ _ Ha H) as (Ha' & _ & _ & i' & rs & _ & _ & R).
    exists (map tri_of rs). rewrite <- (tri_of_records _ Ha'), <- (tri_of_records _ Ha), R, map_app. reflexivity.
  Qed.
  Lemma any_Forall2_nth {A B} (P : A -> B -> Prop) l m : Forall2 P l m ->
    forall k b, nth_error m k = Some b -> exists a, nth_error l k = Some a /\ P a b.
  Proof.
    intros H. induction H as [|a b l m Hab H IH]; intros [|k] y Hy; cbn in *; try discriminate.
    - injection Hy as <-. eauto.
    - apply IH, Hy.
  Qed.
  Theorem any_build_boxes scene : (forall t, In t (a_tri scene) -> ok (world_bounds t)) -> forall fuel infos ord nd ord',
    aligned ord -> Forall (any_describes scene) infos -> recursive_build fuel scene infos ord = Ret (nd, ord') ->
    any_encl (a_tri ord') nd.
  Proof.
    intros HOK. induction fuel as [|k IH]; intros infos ord nd ord' Ha HF H; [discriminate|].
    cbn [recursive_build] in H. destruct infos as [|i rest]; [discriminate|].
    destruct (decide i rest) as [[|ax l mid]|] eqn:D; [| |discriminate].
    - destruct (push_all scene (i :: rest) ord) as [o1|] eqn:Ep; [|discriminate].
      cbn [ret_opt obind] in H. injection H as <- <-.
      destruct (any_push_tri _ _ _ _ HF Ep) as (ts & Ets & F2).
      assert (HO : Forall (fun x => ok (oi_bounds x)) (i :: rest)).
      { rewrite Forall_forall in *. intros x Hx. destruct (HF x Hx) as (t & Ht & ->). cbn [oi_bounds object_info]. apply HOK. eapply nth_error_In; eassumption. }
      inversion HO as [|? ? Oi Or]; subst. destruct (any_union_fold rest Or _ Oi) as (B1 & B2 & B3).
      cbn [any_encl]. split; [exact B1|]. intros j t Hj Ht. rewrite Ets, nth_error_app2 in Ht by lia.
      destruct (any_Forall2_nth _ _ _ F2 _ _ Ht) as (x & Hx & Ex). apply nth_error_In in Hx.
      assert (EB : world_bounds t = oi_bounds x) by (rewrite Ex; reflexivity). rewrite EB.
      destruct Hx as [<-|Hx]; [exact B2|apply B3, Hx].
    - pose proof (decide_perm HP _ _ _ _ _ D) as Pl.
      assert (HFl : Forall (any_describes scene) l).
      { apply Forall_forall. intros x Hx. rewrite Forall_forall in HF. apply HF. eapply Permutation_in; eassumption. }
      rewrite <- (firstn_skipn mid l) in HFl. apply Forall_app in HFl as [F1 F2].
      destruct (recursive_build k scene (firstn mid l) ord) as [[c1 o1]| |] eqn:E1; try discriminate.
      cbn [obind] in H.
      destruct (recursive_build k scene (skipn mid l) o1) as [[c2 o2]| |] eqn:E2; try discriminate.
      cbn [obind] in H. injection H as <- <-.
      destruct (build_spec HP _ _ _ _ _ _ Ha E1) as (Ha1 & HL1 & Hc1 & _).
      pose proof (IH _ _ _ _ Ha F1 E1) as X1. pose proof (IH _ _ _ _ Ha1 F2 E2) as X2.
      destruct (any_build_grows _ _ _ _ _ _ Ha1 E2) as [ts Ets].
      assert (I1 : in_prims (a_tri o1) c1) by (eapply covers_in_prims; [exact Hc1|lia]).
      destruct (union_ok _ _ (any_encl_ok _ _ X1) (any_encl_ok _ _ X2)) as (U1 & U2 & U3).
      cbn [new_interior any_encl]. split; [exact U1|]. rewrite Ets. split; [apply any_encl_ext; assumption|]. rewrite <- Ets. auto.
  Qed.
  (** a ray whose box tests succeed for every box around a primitive's own reaches that primitive *)
  Lemma any_reach ray prims nd : forall st n j t, covers st n nd -> any_encl prims nd ->
    (st <= j < st + n)%nat -> nth_error prims j = Some t ->
    (forall b, ok b -> inside (world_bounds t) b -> bbox_hit b ray (inv_dir ray) = true) ->
    reached ray nd j /\ inside (world_bounds t) (node_bounds nd).
  Proof.
    induction nd as [b first k|b ax c1 IH1 c2 IH2]; intros st n j t Hc He Hj Ht HB; cbn [covers any_encl reached node_bounds] in *.
    - destruct Hc as (-> & -> & _). destruct He as [HO He]. pose proof (He _ _ Hj Ht) as I. split; [split; [apply HB; assumption|assumption]|assumption].
    - destruct Hc as (n1 & n2 & -> & _ & _ & C1 & C2 & _). destruct He as (HO & E1 & E2 & E3 & E4).
      destruct (Nat.lt_ge_cases j (st + n1)) as [L|L].
      + destruct (IH1 st n1 j t C1 E1 ltac:(lia) Ht HB) as [R B]. pose proof (inside_trans _ _ _ B E3). split; [split; [apply HB; assumption|left; exact R]|assumption].
      + destruct (IH2 (st + n1)%nat n2 j t C2 E2 ltac:(lia) Ht HB) as [R B]. pose proof (inside_trans _ _ _ B E4). split; [split; [apply HB; assumption|right; exact R]|assumption].
  Qed.
End AnyBoxes.

(** ** binary64 boxes *)
Open Scope R_scope.
Notation BoxF := (@BBox NumSF).
Definition val_box (b : BoxF) : BoxR := @mkBox NumR (val_vec (bmin b)) (val_vec (bmax b)).
Definition box_within (L : R) (b : BoxF) : Prop := within L (bmin b) /\ within L (bmax b).
Definition box_inside (a b : BoxF) : Prop :=
  (val (vx (bmin b)) <= val (vx (bmin a)) /\ val (vy (bmin b)) <= val (vy (bmin a)) /\ val (vz (bmin b)) <= val (vz (bmin a))) /\
  (val (vx (bmax a)) <= val (vx (bmax b)) /\ val (vy (bmax a)) <= val (vy (bmax b)) /\ val (vz (bmax a)) <= val (vz (bmax b))).
Lemma min_val B x y : finite_upto B x -> finite_upto B y -> val (@fminb NumSF x y) = Rmin (val x) (val y) /\ finite_upto B (@fminb NumSF x y).
Proof.
  intros X Y. split; [|apply minb_finite; assumption]. unfold fminb. rewrite (ltb_val _ _ _ Y X). destruct (Rlt_bool_spec (val y) (val x)).
  - rewrite Rmin_right by lra. reflexivity.
  - rewrite Rmin_left by lra. reflexivity.
Qed.
Lemma max_val B x y : finite_upto B x -> finite_upto B y -> val (@fmaxb NumSF x y) = Rmax (val x) (val y) /\ finite_upto B (@fmaxb NumSF x y).
Proof.
  intros X Y. split; [|apply maxb_finite; assumption]. unfold fmaxb. rewrite (ltb_val _ _ _ X Y). destruct (Rlt_bool_spec (val x) (val y)).
  - rewrite Rmax_right by lra. reflexivity.
  - rewrite Rmax_left by lra. reflexivity.
Qed.
Lemma box_union_ok L (a b : BoxF) : box_within L a -> box_within L b ->
  box_within L (box_union a b) /\ box_inside a (box_union a b) /\ box_inside b (box_union a b).
Proof.
  intros ((A1 & A2 & A3) & (A4 & A5 & A6)) ((B1 & B2 & B3) & (B4 & B5 & B6)).
  destruct (min_val _ _ _ A1 B1) as [V1 F1]. destruct (min_val _ _ _ A2 B2) as [V2 F2]. destruct (min_val _ _ _ A3 B3) as [V3 F3].
  destruct (max_val _ _ _ A4 B4) as [V4 F4]. destruct (max_val _ _ _ A5 B5) as [V5 F5]. destruct (max_val _ _ _ A6 B6) as [V6 F6].
  split; [exact (conj (conj F1 (conj F2 F3)) (conj F4 (conj F5 F6)))|].
  unfold box_inside, box_union, vmin, vmax. cbn [bmin bmax vx vy vz]. rewrite V1, V2, V3, V4, V5, V6.
  split; split; (split; [|split]); first [apply Rmin_l|apply Rmin_r|apply Rmax_l|apply Rmax_r].
Qed.
Lemma bounds_ok L (t : TriF) : within L (ta t) -> within L (tb t) -> within L (tc t) ->
  box_within L (world_bounds t) /\ val_box (world_bounds t) = @world_bounds NumR (val_tri t).
Proof.
  intros (A1 & A2 & A3) (B1 & B2 & B3) (C1 & C2 & C3).
  destruct (min_val _ _ _ A1 B1) as [V1 F1]. destruct (min_val _ _ _ A2 B2) as [V2 F2]. destruct (min_val _ _ _ A3 B3) as [V3 F3].
  destruct (max_val _ _ _ A1 B1) as [V4 F4]. destruct (max_val _ _ _ A2 B2) as [V5 F5]. destruct (max_val _ _ _ A3 B3) as [V6 F6].
  destruct (min_val _ _ _ F1 C1) as [W1 G1]. destruct (min_val _ _ _ F2 C2) as [W2 G2]. destruct (min_val _ _ _ F3 C3) as [W3 G3].
  destruct (max_val _ _ _ F4 C1) as [W4 G4]. destruct (max_val _ _ _ F5 C2) as [W5 G5]. destruct (max_val _ _ _ F6 C3) as [W6 G6].
  split; [exact (conj (conj G1 (conj G2 G3)) (conj G4 (conj G5 G6)))|].
  assert (Gm : forall a b : R, @fminb NumR a b = Rmin a b).
  { intros a b. unfold fminb, Rmin. rsimp. destruct (Rltb_spec b a), (Rle_dec a b); lra. }
  assert (GM : forall a b : R, @fmaxb NumR a b = Rmax a b).
  { intros a b. unfold fmaxb, Rmax. rsimp. destruct (Rltb_spec a b), (Rle_dec a b); lra. }
  unfold val_box, world_bounds, box_union_point, box_point, vmin, vmax, val_tri, val_vec, pt. cbn [bmin bmax ta tb tc vx vy vz].
  f_equal; f_equal; rewrite ?Gm, ?GM; [rewrite W1, V1|rewrite W2, V2|rewrite W3, V3|rewrite W4, V4|rewrite W5, V5|rewrite W6, V6]; reflexivity.
Qed.

(** a point of the box that is closer than m to the limits of the box along at most one axis: not near an edge *)
Definition clear_of (m lo hi x : R) : Prop := lo + m <= x <= hi - m.
Definition off_edges (m : R) (b : BoxR) (p : VecR) : Prop :=
  let cx := clear_of m (vx (bmin b)) (vx (bmax b)) (vx p) in
  let cy := clear_of m (vy (bmin b)) (vy (bmax b)) (vy p) in
  let cz := clear_of m (vz (bmin b)) (vz (bmax b)) (vz p) in
  in_box b p /\ ((cx /\ cy) \/ (cy /\ cz) \/ (cx /\ cz)).
(** what is asked of the external box test: for this ray it must not overlook a box of size L, except along its edges *)
Definition box_test64 (E : @Ext NumSF) (L : R) (ray : RayF) : Prop :=
  forall b s, box_within L b -> 1 / 100000 < s -> off_edges (L / 2 ^ 47) (val_box b) (along (val_ray ray) s) ->
  bbox_hit b ray (inv_dir ray) = true.
Lemma off_edges_inside m a b p : box_inside a b -> off_edges m (val_box a) p -> off_edges m (val_box b) p.
Proof.
  intros ((A1 & A2 & A3) & (A4 & A5 & A6)) H. unfold off_edges, in_box, clear_of, val_box, val_vec, pt in *. cbn [bmin bmax vx vy vz] in *.
  destruct p as [px py pz]. cbn [vx vy vz] in *. 
  repeat match goal with H : context [@vx NumSF ?v] |- _ => generalize dependent (val (@vx NumSF v)); intros | H : context [@vy NumSF ?v] |- _ => generalize dependent (val (@vy NumSF v)); intros | H : context [@vz NumSF ?v] |- _ => generalize dependent (val (@vz NumSF v)); intros end.
  rsimp. destruct H as (H1 & H2). split; [lra|]. destruct H2 as [H2|[H2|H2]]; [left|right; left|right; right]; lra.
Qed.
Lemma weights_range (e a b c u v lo hi : R) : 0 <= e -> e <= 1 - u - v -> e <= u -> e <= v -> 
  (lo = a \/ lo = b \/ lo = c) -> (hi = a \/ hi = b \/ hi = c) -> lo <= a <= hi -> lo <= b <= hi -> lo <= c <= hi ->
  lo + e * (hi - lo) <= (1 - u - v) * a + (u * b + v * c) <= hi - e * (hi - lo).
Proof.
  intros E W U V HL HH A B C.
  assert (P : forall w x, e <= w -> lo <= x <= hi -> 0 <= w * (x - lo) /\ 0 <= w * (hi - x)) by (intros; split; apply Rmult_le_pos; lra).
  destruct (P _ _ W A), (P _ _ U B), (P _ _ V C). set (w := 1 - u - v) in *. assert (EW : w + u + v = 1) by (unfold w; ring).
  assert (Q : forall k x y, e <= k -> lo <= x -> x <= y -> e * (y - x) <= k * (y - x)) by (intros; apply Rmult_le_compat_r; lra).
  assert (S1 : w * a + (u * b + v * c) = lo + (w * (a - lo) + u * (b - lo) + v * (c - lo))) by (replace lo with ((w + u + v) * lo) at 1 by (rewrite EW; ring); ring).
  assert (S2 : w * a + (u * b + v * c) = hi - (w * (hi - a) + u * (hi - b) + v * (hi - c))) by (replace hi with ((w + u + v) * hi) at 1 by (rewrite EW; ring); ring).
  split.
  - rewrite S1. destruct HH as [->|[->| ->]]; [pose proof (Q w lo a)|pose proof (Q u lo b)|pose proof (Q v lo c)]; lra.
  - rewrite S2. destruct HL as [->|[->| ->]]; [pose proof (Q w a hi)|pose proof (Q u b hi)|pose proof (Q v c hi)]; lra.
Qed.
Lemma margin_one (L V Y : R) : 1 <= L -> 0 < V -> V <= 13 * (L * Y) -> L / 2 ^ 47 <= L * L / (2 ^ 43 * V) * Y.
Proof.
  intros HL HV HY. assert (0 < L * Y) by lra. assert (0 < Y) by nra.
  apply (Rmult_le_reg_r (2 ^ 47 * V)); [lra|].
  replace (L / 2 ^ 47 * (2 ^ 47 * V)) with (L * V) by (field; lra).
  replace (L * L / (2 ^ 43 * V) * Y * (2 ^ 47 * V)) with (16 * (L * (L * Y))) by (field; lra).
  assert (L * V <= L * (13 * (L * Y))) by (apply Rmult_le_compat_l; lra). nra.
Qed.
Lemma margin_two (L V X Y Z : R) : 1 <= L -> 0 < V -> 0 <= X <= 2 * L -> 0 <= Y <= 2 * L -> 0 <= Z <= 2 * L ->
  V <= 2002 / 1000 * (X * Y + Y * Z + X * Z) ->
  let e := L * L / (2 ^ 43 * V) in let m := L / 2 ^ 47 in
  (m <= e * X /\ m <= e * Y) \/ (m <= e * Y /\ m <= e * Z) \/ (m <= e * X /\ m <= e * Z).
Proof.
  intros HL HV HX HY HZ H e m.
  assert (M : forall A B C, 0 <= A -> A <= B -> A <= C -> B <= 2 * L -> C <= 2 * L -> V <= 2002 / 1000 * (A * B + B * C + A * C) -> m <= e * B /\ m <= e * C).
  { intros A B C A0 AB AC B2 C2 HH. assert (A * B <= C * B) by (apply Rmult_le_compat_r; lra). assert (A * C <= B * C) by (apply Rmult_le_compat_r; lra).
    split; apply margin_one; try assumption.
    - assert (B * C <= B * (2 * L)) by (apply Rmult_le_compat_l; lra). lra.
    - assert (B * C <= (2 * L) * C) by (apply Rmult_le_compat_r; lra). lra. }
  destruct (Rle_or_lt X Y) as [A|A]; [destruct (Rle_or_lt X Z) as [B|B]|destruct (Rle_or_lt Y Z) as [B|B]].
  - right; left. apply (M X Y Z); lra.
  - left. apply (M Z X Y); try lra; rewrite (Rmult_comm Z X), (Rmult_comm Z Y); lra.
  - right; right. apply (M Y X Z); try lra; rewrite (Rmult_comm Y X); lra.
  - left. apply (M Z X Y); try lra; rewrite (Rmult_comm Z X), (Rmult_comm Z Y); lra.
Qed.
Lemma extremes (a b c L : R) : Rabs a <= L -> Rabs b <= L -> Rabs c <= L ->
  let lo := Rmin (Rmin a b) c in let hi := Rmax (Rmax a b) c in
  (lo = a \/ lo = b \/ lo = c) /\ (hi = a \/ hi = b \/ hi = c) /\ lo <= a <= hi /\ lo <= b <= hi /\ lo <= c <= hi /\ 0 <= hi - lo <= 2 * L /\
  Rabs (b - a) <= hi - lo /\ Rabs (c - a) <= hi - lo.
Proof.
  intros A B C lo hi. apply Rabs_le_inv in A, B, C. unfold lo, hi.
  destruct (Rle_or_lt a b) as [Q1|Q1]; [rewrite (Rmin_left a b), (Rmax_right a b) by lra|rewrite (Rmin_right a b), (Rmax_left a b) by lra];
  (destruct (Rle_or_lt a c) as [Q2|Q2]; destruct (Rle_or_lt b c) as [Q3|Q3]);
  first [exfalso; lra | match goal with |- context [Rmin ?p ?q] => first [rewrite (Rmin_left p q) by lra|rewrite (Rmin_right p q) by lra] end;
  match goal with |- context [Rmax ?p ?q] => first [rewrite (Rmax_left p q) by lra|rewrite (Rmax_right p q) by lra] end;
  (split; [tauto|]); (split; [tauto|]); (split; [lra|]); (split; [lra|]); (split; [lra|]); (split; [lra|]); split; apply Rabs_le; lra].
Qed.
Lemma bounds_values (t : TriR) : @world_bounds NumR t = @mkBox NumR
  (pt (Rmin (Rmin (vx (ta t)) (vx (tb t))) (vx (tc t))) (Rmin (Rmin (vy (ta t)) (vy (tb t))) (vy (tc t))) (Rmin (Rmin (vz (ta t)) (vz (tb t))) (vz (tc t))))
  (pt (Rmax (Rmax (vx (ta t)) (vx (tb t))) (vx (tc t))) (Rmax (Rmax (vy (ta t)) (vy (tb t))) (vy (tc t))) (Rmax (Rmax (vz (ta t)) (vz (tb t))) (vz (tc t)))).
Proof.
  assert (Gm : forall a b : R, @fminb NumR a b = Rmin a b).
  { intros a b. unfold fminb, Rmin. rsimp. destruct (Rltb_spec b a), (Rle_dec a b); lra. }
  assert (GM : forall a b : R, @fmaxb NumR a b = Rmax a b).
  { intros a b. unfold fmaxb, Rmax. rsimp. destruct (Rltb_spec a b), (Rle_dec a b); lra. }
  unfold world_bounds, box_union_point, box_point, vmin, vmax, pt. cbn [bmin bmax vx vy vz]. rewrite !Gm, !GM. reflexivity.
Qed.
Lemma minor_bound (p q r s Y Z : R) : Rabs p <= Y -> Rabs q <= Z -> Rabs r <= Y -> Rabs s <= Z -> Rabs (p * q - r * s) <= 2 * (Y * Z).
Proof.
  intros P Q RR S. unfold Rminus. refine (Rle_trans _ _ _ (Rabs_triang _ _) _). rewrite Rabs_Ropp, !Rabs_mult.
  assert (Rabs p * Rabs q <= Y * Z) by (apply Rmult_le_compat; try apply Rabs_pos; assumption).
  assert (Rabs r * Rabs s <= Y * Z) by (apply Rmult_le_compat; try apply Rabs_pos; assumption). lra.
Qed.
(** a point of a triangle well inside it is off the edges of its box *)
Lemma interior_off_edges (L : R) (t : TriR) (ray : RayR) u v : 1 <= L ->
  (Rabs (vx (ta t)) <= L /\ Rabs (vy (ta t)) <= L /\ Rabs (vz (ta t)) <= L) ->
  (Rabs (vx (tb t)) <= L /\ Rabs (vy (tb t)) <= L /\ Rabs (vz (tb t)) <= L) ->
  (Rabs (vx (tc t)) <= L /\ Rabs (vy (tc t)) <= L /\ Rabs (vz (tc t)) <= L) ->
  (Rabs (vx (direction ray)) <= 1001 / 1000 /\ Rabs (vy (direction ray)) <= 1001 / 1000 /\ Rabs (vz (direction ray)) <= 1001 / 1000) ->
  0 < Rabs (volume ray t) ->
  let e := L * L / (2 ^ 43 * Rabs (volume ray t)) in
  e <= u -> e <= v -> u + v <= 1 - e -> off_edges (L / 2 ^ 47) (@world_bounds NumR t) (bary t u v).
Proof.
  intros HL (A1 & A2 & A3) (B1 & B2 & B3) (C1 & C2 & C3) (D1 & D2 & D3) HV e U V W.
  assert (E0 : 0 < e) by (unfold e; apply Rdiv_lt_0_compat; [nra|lra]).
  rewrite bounds_values. unfold off_edges, in_box, clear_of, bary, plus, times, pt. cbn [bmin bmax vx vy vz].
  assert (VB : forall X Y Z, Rabs (vx (tb t) - vx (ta t)) <= X -> Rabs (vx (tc t) - vx (ta t)) <= X -> Rabs (vy (tb t) - vy (ta t)) <= Y -> Rabs (vy (tc t) - vy (ta t)) <= Y ->
    Rabs (vz (tb t) - vz (ta t)) <= Z -> Rabs (vz (tc t) - vz (ta t)) <= Z -> Rabs (volume ray t) <= 2002 / 1000 * (X * Y + Y * Z + X * Z)).
  { intros X Y Z X1 X2 Y1 Y2 Z1 Z2. clear -X1 X2 Y1 Y2 Z1 Z2 D1 D2 D3. unfold volume, dot, cross, minus, pt. cbn [vx vy vz].
    set (a := vx (tb t) - vx (ta t)) in *. set (b := vy (tb t) - vy (ta t)) in *. set (c := vz (tb t) - vz (ta t)) in *.
    set (a' := vx (tc t) - vx (ta t)) in *. set (b' := vy (tc t) - vy (ta t)) in *. set (c' := vz (tc t) - vz (ta t)) in *.
    set (dx := vx (direction ray)) in *. set (dy := vy (direction ray)) in *. set (dz := vz (direction ray)) in *. clearbody a b c a' b' c' dx dy dz.
    assert (G : forall a b c a' b' c' dx dy dz : R, a * (dy * c' - dz * b') + b * (dz * a' - dx * c') + c * (dx * b' - dy * a') = dx * (b' * c - b * c') + dy * (a * c' - a' * c) + dz * (a' * b - a * b')) by (intros; ring).
    rewrite G. clear G.
    pose proof (minor_bound b' c b c' Y Z Y2 Z1 Y1 Z2) as M1. pose proof (minor_bound a c' a' c X Z X1 Z2 X2 Z1) as M2. pose proof (minor_bound a' b a b' X Y X2 Y1 X1 Y2) as M3.
    refine (Rle_trans _ _ _ (Rabs_triang _ _) _). pose proof (Rabs_triang (dx * (b' * c - b * c')) (dy * (a * c' - a' * c))) as T. rewrite !Rabs_mult in *.
    assert (P1 : Rabs dx * Rabs (b' * c - b * c') <= 1001 / 1000 * (2 * (Y * Z))) by (apply Rmult_le_compat; try apply Rabs_pos; assumption).
    assert (P2 : Rabs dy * Rabs (a * c' - a' * c) <= 1001 / 1000 * (2 * (X * Z))) by (apply Rmult_le_compat; try apply Rabs_pos; assumption).
    assert (P3 : Rabs dz * Rabs (a' * b - a * b') <= 1001 / 1000 * (2 * (X * Y))) by (apply Rmult_le_compat; try apply Rabs_pos; assumption). lra. }
  destruct (extremes _ _ _ L A1 B1 C1) as (X1 & X2 & X3 & X4 & X5 & X6 & X7 & X8).
  destruct (extremes _ _ _ L A2 B2 C2) as (Y1 & Y2 & Y3 & Y4 & Y5 & Y6 & Y7 & Y8).
  destruct (extremes _ _ _ L A3 B3 C3) as (Z1 & Z2 & Z3 & Z4 & Z5 & Z6 & Z7 & Z8).
  pose proof (margin_two L _ _ _ _ HL HV X6 Y6 Z6 (VB _ _ _ X7 X8 Y7 Y8 Z7 Z8)) as M. cbv zeta in M. fold e in M. clear VB.
  pose proof (weights_range e _ _ _ u v _ _ ltac:(lra) ltac:(lra) U V X1 X2 X3 X4 X5) as WX.
  pose proof (weights_range e _ _ _ u v _ _ ltac:(lra) ltac:(lra) U V Y1 Y2 Y3 Y4 Y5) as WY.
  pose proof (weights_range e _ _ _ u v _ _ ltac:(lra) ltac:(lra) U V Z1 Z2 Z3 Z4 Z5) as WZ.
  assert (EX : 0 <= e * (Rmax (Rmax (vx (ta t)) (vx (tb t))) (vx (tc t)) - Rmin (Rmin (vx (ta t)) (vx (tb t))) (vx (tc t)))) by (apply Rmult_le_pos; lra).
  assert (EY : 0 <= e * (Rmax (Rmax (vy (ta t)) (vy (tb t))) (vy (tc t)) - Rmin (Rmin (vy (ta t)) (vy (tb t))) (vy (tc t)))) by (apply Rmult_le_pos; lra).
  assert (EZ : 0 <= e * (Rmax (Rmax (vz (ta t)) (vz (tb t))) (vz (tc t)) - Rmin (Rmin (vz (ta t)) (vz (tb t))) (vz (tc t)))) by (apply Rmult_le_pos; lra).
  split; [rsimp; lra|]. set (m := L / 2 ^ 47) in *. clearbody m e. rsimp.
  destruct M as [M|[M|M]]; [left|right; left|right; right]; lra.
Qed.
