(** * Proofs about mesh_sphere *)
From Coq Require Import Permutation.
From Verif Require Import NumR Geometry Triangle Sphere SpecGeom SpecMesh TriangleProofs.
Open Scope R_scope.

Ltac perm_find x l1 l2 :=
  lazymatch l2 with
  | x :: ?t => apply (Permutation_cons_app l1 t x); cbn [app]
  | ?y :: ?t => let l := eval cbn [app] in (l1 ++ [y]) in perm_find x l t
  end.
Ltac perm :=
  lazymatch goal with
  | |- Permutation [] [] => constructor
  | |- Permutation (?x :: ?l) ?r => match type of r with list ?A => perm_find x (@nil A) r end; perm
  end.

(** ** combinatorics, for every arithmetic *)
Section Any.
  Context {N : Num} {T : Trig N}.
  Implicit Types (c : Vec) (r : F) (ts : list Tri3).

  Lemma set_nth_app {A} (l1 : list A) x y l2 : set_nth (length l1) x (l1 ++ y :: l2) = l1 ++ x :: l2.
  Proof. induction l1; cbn; [reflexivity|rewrite IHl1; reflexivity]. Qed.

  Lemma refine_loop c r : forall todo done back,
    fold_left (refine_step c r) (seq (length done) (length todo)) (done ++ todo ++ back) =
    done ++ map (first_child c r) todo ++ back ++ flat_map (other_children c r) todo.
  Proof.
    induction todo as [|t todo IH]; intros done back; cbn [length seq fold_left map flat_map app].
    - rewrite app_nil_r. reflexivity.
    - unfold refine_step at 2. rewrite nth_error_app2 by lia. rewrite Nat.sub_diag. cbn [nth_error].
      rewrite set_nth_app.
      replace ((done ++ first_child c r t :: todo ++ back) ++ other_children c r t)
         with ((done ++ [first_child c r t]) ++ todo ++ (back ++ other_children c r t))
        by (rewrite <- !app_assoc; cbn [app]; rewrite <- ?app_assoc; reflexivity).
      replace (S (length done)) with (length (done ++ [first_child c r t])) by (rewrite app_length; cbn; lia).
      rewrite IH. rewrite <- !app_assoc. reflexivity.
  Qed.
  Lemma refine_eq c r ts : refine c r ts = map (first_child c r) ts ++ flat_map (other_children c r) ts.
  Proof. unfold refine. pose proof (refine_loop c r ts [] []) as H. cbn [length app] in H. rewrite app_nil_r in H. exact H. Qed.

  Definition children c r (t : Tri3) : list Tri3 := first_child c r t :: other_children c r t.
  Lemma refine_perm c r ts : Permutation (refine c r ts) (flat_map (children c r) ts).
  Proof.
    rewrite refine_eq. induction ts as [|t ts IH]; [constructor|]. cbn [map flat_map children app].
    constructor. rewrite <- IH. rewrite !app_assoc. apply Permutation_app_tail. apply Permutation_app_comm.
  Qed.
  Lemma refine_length c r ts : length (refine c r ts) = (4 * length ts)%nat.
  Proof.
    rewrite (Permutation_length (refine_perm c r ts)). induction ts as [|[[a b] d] ts IH]; [reflexivity|].
    cbn [flat_map]. rewrite app_length, IH. cbn. lia.
  Qed.
  Lemma refinements_length k c r : forall ts, length (refinements k c r ts) = (4 ^ k * length ts)%nat.
  Proof. induction k; intros ts; cbn [refinements]; [cbn; lia|]. rewrite IHk, refine_length. cbn [Nat.pow]. lia. Qed.

  Lemma all_sides_app (l1 l2 : list Triangle) : all_sides (l1 ++ l2) = all_sides l1 ++ all_sides l2.
  Proof. unfold all_sides. apply flat_map_app. Qed.
  Lemma all_sides_perm (l1 l2 : list Triangle) : Permutation l1 l2 -> Permutation (all_sides l1) (all_sides l2).
  Proof.
    induction 1; cbn [all_sides flat_map].
    - constructor.
    - apply Permutation_app_head. assumption.
    - rewrite !app_assoc. apply Permutation_app_tail. apply Permutation_app_comm.
    - etransitivity; eassumption.
  Qed.
  Lemma watertight_perm (l1 l2 : list Triangle) : Permutation l1 l2 -> watertight l1 -> watertight l2.
  Proof.
    unfold watertight. intros P H. pose proof (all_sides_perm _ _ P) as Q.
    transitivity (all_sides l1); [symmetry; exact Q|]. transitivity (map reversed (all_sides l1)); [exact H|].
    apply Permutation_map. exact Q.
  Qed.

  (** each side gives two half sides; the sides inside a refined triangle already pair up *)
  Definition halves c r (e : Vec * Vec) : list (Vec * Vec) :=
    let m := midpoint c r (fst e) (snd e) in [(fst e, m); (m, snd e)].
  Definition inner c r (t : Tri3) : list (Vec * Vec) :=
    let '(a, b, d) := t in
    let ab := midpoint c r a b in let ac := midpoint c r a d in let bc := midpoint c r b d in
    [(ab, ac); (bc, ab); (ac, bc)].

  Hypothesis comm : forall x y : F, fadd x y = fadd y x.
  Lemma midpoint_comm c r a b : midpoint c r a b = midpoint c r b a.
  Proof. unfold midpoint, vadd. cbn. rewrite (comm (vx a)), (comm (vy a)), (comm (vz a)). reflexivity. Qed.


  Lemma children_sides c r t :
    Permutation (all_sides (map to_triangle (children c r t)))
                (flat_map (halves c r) (sides (to_triangle t)) ++ inner c r t ++ map reversed (inner c r t)).
  Proof.
    destruct t as [[a b] d]. cbn [children first_child other_children map to_triangle all_sides flat_map sides ta tb tc app
      halves fst snd inner reversed]. rewrite (midpoint_comm c r d a).
    unfold reversed. cbn [fst snd]. perm.
  Qed.

  Lemma map_flat_map {A B C} (f : B -> C) (g : A -> list B) l : map f (flat_map g l) = flat_map (fun x => map f (g x)) l.
  Proof. induction l; cbn; [reflexivity|]. rewrite map_app, IHl. reflexivity. Qed.
  Lemma flat_map_map {A B C} (f : B -> list C) (g : A -> B) l : flat_map f (map g l) = flat_map (fun x => f (g x)) l.
  Proof. induction l; cbn; [reflexivity|]. rewrite IHl. reflexivity. Qed.
  Lemma flat_map_perm {A B} (f : A -> list B) l1 l2 : Permutation l1 l2 -> Permutation (flat_map f l1) (flat_map f l2).
  Proof.
    induction 1; cbn [flat_map].
    - constructor.
    - apply Permutation_app_head. assumption.
    - rewrite !app_assoc. apply Permutation_app_tail. apply Permutation_app_comm.
    - etransitivity; eassumption.
  Qed.
  Lemma flat_map_ext_perm {A B} (f g : A -> list B) l : (forall x, Permutation (f x) (g x)) -> Permutation (flat_map f l) (flat_map g l).
  Proof. intros H. induction l; cbn; [constructor|]. apply Permutation_app; [apply H|assumption]. Qed.

  Lemma refined_sides c r ts :
    Permutation (all_sides (map to_triangle (flat_map (children c r) ts)))
                (flat_map (halves c r) (all_sides (map to_triangle ts)) ++
                 flat_map (inner c r) ts ++ map reversed (flat_map (inner c r) ts)).
  Proof.
    induction ts as [|t ts IH]; [constructor|].
    cbn [flat_map map]. rewrite map_app, all_sides_app, IH, children_sides.
    change (all_sides (to_triangle t :: map to_triangle ts)) with (sides (to_triangle t) ++ all_sides (map to_triangle ts)).
    rewrite flat_map_app, map_app. rewrite <- !app_assoc. apply Permutation_app_head.
    rewrite (Permutation_app_comm (flat_map (halves c r) _)). rewrite <- !app_assoc.
    rewrite (app_assoc _ _ (flat_map (halves c r) _)).
    rewrite (app_assoc (inner c r t)). 
    etransitivity; [|apply Permutation_app_comm]. rewrite !app_assoc. apply Permutation_app_tail.
    rewrite <- !app_assoc. apply Permutation_app_head. rewrite !app_assoc. apply Permutation_app_tail. apply Permutation_app_comm.
  Qed.

  Lemma refine_watertight c r ts : watertight (map to_triangle ts) -> watertight (map to_triangle (refine c r ts)).
  Proof.
    intros H. apply (watertight_perm (map to_triangle (flat_map (children c r) ts))).
    { symmetry. apply Permutation_map. apply refine_perm. }
    unfold watertight in *.
    assert (E : forall l, map (@reversed Vec) (map reversed l) = l).
    { intros l. rewrite map_map. rewrite <- (map_id l) at 2. apply map_ext. intros [x y]. reflexivity. }
    etransitivity; [apply refined_sides|]. etransitivity; [|apply Permutation_map; symmetry; apply refined_sides].
    rewrite !map_app, E. apply Permutation_app; [|apply Permutation_app_comm].
    rewrite map_flat_map.
    etransitivity; [apply flat_map_perm; exact H|]. rewrite flat_map_map. apply flat_map_ext_perm.
    intros [x y]. unfold halves, reversed. cbn [fst snd map]. rewrite (midpoint_comm c r y x). apply perm_swap.
  Qed.
  Lemma refinements_watertight k c r : forall ts, watertight (map to_triangle ts) -> watertight (map to_triangle (refinements k c r ts)).
  Proof. induction k; intros ts H; cbn [refinements]; [assumption|]. apply IHk. apply refine_watertight. assumption. Qed.

  Lemma base_watertight top bottom mt mb : watertight (map to_triangle (base_triangles top bottom mt mb)).
  Proof.
    unfold watertight, base_triangles. cbn [map to_triangle all_sides flat_map sides ta tb tc app]. unfold reversed. cbn [map fst snd]. perm.
  Qed.
End Any.

(** ** geometry, in exact arithmetic *)
Definition det3 (a b c : VecR) : R := dot a (cross b c).
Definition cone (a b c d : VecR) : Prop :=
  exists p q s, 0 <= p /\ 0 <= q /\ 0 <= s /\ d = plus (times p a) (plus (times q b) (times s c)).

Lemma dot_self_nonneg (a : VecR) : 0 <= dot a a.
Proof. dvec. vunf. nra. Qed.
Lemma dot_self_zero (a : VecR) : dot a a = 0 -> a = pt 0 0 0.
Proof. dvec. vunf. intros H. apply vec_ext; cbn [vx vy vz]; nra. Qed.

Lemma midpoint_rel c r a b : 0 < r -> plus (minus a c) (minus b c) <> pt 0 0 0 ->
  exists k, 0 < k /\ minus (midpoint c r a b) c = times k (plus (minus a c) (minus b c)) /\
            dot (minus (midpoint c r a b) c) (minus (midpoint c r a b) c) = r * r.
Proof.
  intros Hr Hne. set (w := plus (minus a c) (minus b c)) in *.
  assert (Hw : 0 < dot w w).
  { destruct (Rle_lt_or_eq_dec 0 (dot w w) (dot_self_nonneg w)) as [H|H]; [exact H|].
    exfalso. apply Hne. apply dot_self_zero. symmetry. exact H. }
  set (n := sqrt (dot w w)). assert (Hn : 0 < n) by (apply sqrt_lt_R0; exact Hw).
  assert (Hnn : n * n = dot w w) by (apply sqrt_sqrt; lra).
  assert (E : vsub (vdivs (vadd a b) f2) c = times (/ 2) w).
  { unfold w. clear. dvec. apply vec_ext; vunf; field. }
  assert (Hl : @vlen NumR (times (/ 2) w) = n / 2).
  { rewrite vlen_norm. unfold norm. replace (dot (times (/ 2) w) (times (/ 2) w)) with ((n / 2) * (n / 2)).
    - apply sqrt_square. lra.
    - transitivity (dot w w / 4); [rewrite <- Hnn; field|]. clearbody w. clear. dvec. vunf. field. }
  assert (M : minus (midpoint c r a b) c = times (r / n) w).
  { unfold midpoint, vnormalized. rewrite E, Hl. clearbody n w. clear - Hn.
    dvec. apply vec_ext; vunf; field; lra. }
  exists (r / n). split; [apply Rdiv_lt_0_compat; assumption|]. split; [exact M|].
  rewrite M. transitivity (r / n * (r / n) * dot w w).
  - generalize (r / n). clearbody w. clear. intros k. dvec. vunf. ring.
  - rewrite <- Hnn. field. lra.
Qed.

Lemma det3_sum_ne a b c : 0 < det3 a b c -> plus a b <> pt 0 0 0 /\ plus a c <> pt 0 0 0 /\ plus b c <> pt 0 0 0.
Proof.
  intros H. repeat split; intros E; pose proof (f_equal vx E); pose proof (f_equal vy E); pose proof (f_equal vz E);
    clear E; unfold det3 in H; dvec; vunf.
  - replace b_x with (- a_x) in H by lra. replace b_y with (- a_y) in H by lra. replace b_z with (- a_z) in H by lra. ring_simplify in H. lra.
  - replace c_x with (- a_x) in H by lra. replace c_y with (- a_y) in H by lra. replace c_z with (- a_z) in H by lra. ring_simplify in H. lra.
  - replace c_x with (- b_x) in H by lra. replace c_y with (- b_y) in H by lra. replace c_z with (- b_z) in H by lra. ring_simplify in H. lra.
Qed.

Definition good (c : VecR) (r : R) (t : @Tri3 NumR) : Prop :=
  let '(a, b, d) := t in
  (dot (minus a c) (minus a c) = r * r /\ dot (minus b c) (minus b c) = r * r /\ dot (minus d c) (minus d c) = r * r) /\
  0 < det3 (minus a c) (minus b c) (minus d c).
Definition cone_of (c : VecR) (t : @Tri3 NumR) : VecR -> Prop :=
  let '(a, b, d) := t in cone (minus a c) (minus b c) (minus d c).

Lemma det3_children a b d k1 k2 k3 :
  det3 a (times k1 (plus a b)) (times k2 (plus a d)) = k1 * k2 * det3 a b d /\
  det3 (times k1 (plus a b)) b (times k3 (plus b d)) = k1 * k3 * det3 a b d /\
  det3 (times k3 (plus b d)) d (times k2 (plus a d)) = k2 * k3 * det3 a b d /\
  det3 (times k1 (plus a b)) (times k3 (plus b d)) (times k2 (plus a d)) = 2 * (k1 * k2 * k3) * det3 a b d.
Proof. unfold det3. dvec. vunf. repeat split; ring. Qed.

Lemma children_good c r t : 0 < r -> good c r t -> Forall (good c r) (children c r t).
Proof.
  intros Hr. destruct t as [[a b] d]. intros [(Sa & Sb & Sd) D].
  destruct (det3_sum_ne _ _ _ D) as (N1 & N2 & N3).
  destruct (midpoint_rel c r a b Hr N1) as (k1 & K1 & E1 & S1).
  destruct (midpoint_rel c r a d Hr N2) as (k2 & K2 & E2 & S2).
  destruct (midpoint_rel c r b d Hr N3) as (k3 & K3 & E3 & S3).
  destruct (det3_children (minus a c) (minus b c) (minus d c) k1 k2 k3) as (D1 & D2 & D3 & D4).
  unfold children, first_child, other_children. unfold good.
  assert (0 < k1 * k2) by nra. assert (0 < k1 * k3) by nra. assert (0 < k2 * k3) by nra. assert (0 < k1 * k2 * k3) by nra.
  repeat constructor; try assumption; rewrite ?E1, ?E2, ?E3, ?D1, ?D2, ?D3, ?D4; nra.
Qed.
Lemma refinements_good k c r : 0 < r -> forall ts, Forall (good c r) ts -> Forall (good c r) (refinements k c r ts).
Proof.
  intros Hr. induction k; intros ts H; cbn [refinements]; [assumption|]. apply IHk.
  apply Forall_forall. intros t Hin. eapply Permutation_in in Hin; [|apply refine_perm].
  apply in_flat_map in Hin. destruct Hin as (p & Hp & Hc). rewrite Forall_forall in H.
  pose proof (children_good c r p Hr (H p Hp)) as G. rewrite Forall_forall in G. auto.
Qed.

(** the four children cover the cone of their parent *)
Lemma cone_split a b d v k1 k2 k3 : 0 < k1 -> 0 < k2 -> 0 < k3 -> cone a b d v ->
  let ab := times k1 (plus a b) in let ac := times k2 (plus a d) in let bc := times k3 (plus b d) in
  cone a ab ac v \/ cone ab b bc v \/ cone bc d ac v \/ cone ab bc ac v.
Proof.
  intros K1 K2 K3 (p & q & s & Hp & Hq & Hs & E) ab ac bc.
  assert (I1 : 0 < / k1) by (apply Rinv_0_lt_compat; assumption).
  assert (I2 : 0 < / k2) by (apply Rinv_0_lt_compat; assumption).
  assert (I3 : 0 < / k3) by (apply Rinv_0_lt_compat; assumption).
  destruct (Rle_dec (q + s) p) as [C1|C1]; [|destruct (Rle_dec (p + s) q) as [C2|C2]; [|destruct (Rle_dec (p + q) s) as [C3|C3]]].
  - left. exists (p - q - s), (q / k1), (s / k2). split; [lra|]. split; [unfold Rdiv; nra|]. split; [unfold Rdiv; nra|].
    rewrite E. unfold ab, ac. clear E ab ac bc. dvec. apply vec_ext; vunf; field; lra.
  - right; left. exists (p / k1), (q - p - s), (s / k3). split; [unfold Rdiv; nra|]. split; [lra|]. split; [unfold Rdiv; nra|].
    rewrite E. unfold ab, bc. clear E ab ac bc. dvec. apply vec_ext; vunf; field; lra.
  - right; right; left. exists (q / k3), (s - p - q), (p / k2). split; [unfold Rdiv; nra|]. split; [lra|]. split; [unfold Rdiv; nra|].
    rewrite E. unfold ac, bc. clear E ab ac bc. dvec. apply vec_ext; vunf; field; lra.
  - right; right; right. exists ((p + q - s) / 2 / k1), ((q + s - p) / 2 / k3), ((p + s - q) / 2 / k2).
    split; [unfold Rdiv; nra|]. split; [unfold Rdiv; nra|]. split; [unfold Rdiv; nra|].
    rewrite E. unfold ab, ac, bc. clear E ab ac bc. dvec. apply vec_ext; vunf; field; lra.
Qed.
Lemma children_cover c r t v : 0 < r -> good c r t -> cone_of c t v -> Exists (fun t' => cone_of c t' v) (children c r t).
Proof.
  intros Hr. destruct t as [[a b] d]. intros [(Sa & Sb & Sd) D] C.
  destruct (det3_sum_ne _ _ _ D) as (N1 & N2 & N3).
  destruct (midpoint_rel c r a b Hr N1) as (k1 & K1 & E1 & S1).
  destruct (midpoint_rel c r a d Hr N2) as (k2 & K2 & E2 & S2).
  destruct (midpoint_rel c r b d Hr N3) as (k3 & K3 & E3 & S3).
  pose proof (cone_split _ _ _ _ k1 k2 k3 K1 K2 K3 C) as H. cbv zeta in H. rewrite <- E1, <- E2, <- E3 in H.
  unfold children, first_child, other_children, cone_of.
  destruct H as [H|[H|[H|H]]]; [apply Exists_cons_hd|do 1 apply Exists_cons_tl; apply Exists_cons_hd|
    do 2 apply Exists_cons_tl; apply Exists_cons_hd|do 3 apply Exists_cons_tl; apply Exists_cons_hd]; exact H.
Qed.
Lemma refinements_cover k c r v : 0 < r -> forall ts, Forall (good c r) ts -> Exists (fun t => cone_of c t v) ts ->
  Exists (fun t => cone_of c t v) (refinements k c r ts).
Proof.
  intros Hr. induction k; intros ts G H; cbn [refinements]; [assumption|]. apply IHk.
  - apply (refinements_good 1 c r Hr ts G).
  - apply Exists_exists in H. destruct H as (t & Hin & Ht). rewrite Forall_forall in G.
    pose proof (children_cover c r t v Hr (G t Hin) Ht) as H. apply Exists_exists in H. destruct H as (t' & Hin' & Ht').
    apply Exists_exists. exists t'. split; [|exact Ht']. eapply Permutation_in; [symmetry; apply refine_perm|].
    apply in_flat_map. eauto.
Qed.

(** the initial solid: ring directions at multiples of 36 degrees *)
Definition ex (k : Z) : R := sin (IZR k * (PI / 5)).
Definition ey (k : Z) : R := cos (IZR k * (PI / 5)).
Definition c36 : R := cos (PI / 5).
Definition s36 : R := sin (PI / 5).
Lemma s36_pos : 0 < s36. Proof. apply sin_gt_0; pose proof PI_RGT_0; lra. Qed.
Lemma c36_pos : 0 < c36. Proof. apply cos_gt_0; pose proof PI_RGT_0; lra. Qed.
Lemma e_next k : ex (k + 1) = ex k * c36 + ey k * s36 /\ ey (k + 1) = ey k * c36 - ex k * s36.
Proof. unfold ex, ey, c36, s36. rewrite plus_IZR, Rmult_plus_distr_r, Rmult_1_l, sin_plus, cos_plus. split; ring. Qed.
Lemma e_prev k : ex (k - 1) = ex k * c36 - ey k * s36 /\ ey (k - 1) = ey k * c36 + ex k * s36.
Proof.
  unfold ex, ey, c36, s36. rewrite minus_IZR. replace ((IZR k - 1) * (PI / 5)) with (IZR k * (PI / 5) - PI / 5) by ring.
  rewrite sin_minus, cos_minus. split; ring.
Qed.
Lemma e_unit k : ex k * ex k + ey k * ey k = 1.
Proof. unfold ex, ey. pose proof (sin2_cos2 (IZR k * (PI / 5))) as H. unfold Rsqr in H. lra. Qed.
Lemma cs36 : s36 * s36 + c36 * c36 = 1.
Proof. unfold s36, c36. pose proof (sin2_cos2 (PI / 5)) as H. unfold Rsqr in H. lra. Qed.
Lemma e_half k : ex (k + 5) = - ex k /\ ey (k + 5) = - ey k.
Proof.
  unfold ex, ey. rewrite plus_IZR. replace ((IZR k + 5) * (PI / 5)) with (IZR k * (PI / 5) + PI) by field.
  rewrite neg_sin, neg_cos. split; ring.
Qed.
Lemma e_full k : ex (k + 10) = ex k /\ ey (k + 10) = ey k.
Proof.
  replace (k + 10)%Z with (k + 5 + 5)%Z by lia. destruct (e_half (k + 5)) as [-> ->]. destruct (e_half k) as [-> ->]. split; ring.
Qed.

(** ring points relative to the centre *)
Definition top_ring (r : R) (k : Z) : VecR := pt (r * sin (PI / 3) * ex k) (r * sin (PI / 3) * ey k) (r / 2).
Definition low_ring (r : R) (k : Z) : VecR := pt (r * sin (PI / 3) * ex k) (r * sin (PI / 3) * ey k) (- (r / 2)).
Definition pole (r : R) : VecR := pt 0 0 r.

Lemma sixty : to_radians (N := NumR) (fofZ 60) = PI / 3.
Proof. unfold to_radians. rsimp. lra. Qed.
Lemma ring_rel c m z k : minus (ring_point c m z (36 * k)) c = pt (m * ex k) (m * ey k) z.
Proof.
  unfold ring_point. replace (to_radians (N := NumR) (fofZ (36 * k))) with (IZR k * (PI / 5)) by (unfold to_radians; rsimp; rewrite mult_IZR; lra).
  rsimp. fold (ex k) (ey k). generalize (ex k) (ey k). intros. dvec. apply vec_ext; vunf; ring.
Qed.
Lemma mt_rel c r i : minus (ring_point c (fmul r (fsin (to_radians (fofZ 60)))) (fmul r (fcos (to_radians (fofZ 60)))) (36 * (2 * Z.of_nat i + 1))) c
  = top_ring r (2 * Z.of_nat i + 1).
Proof.
  rewrite sixty, ring_rel. unfold top_ring. rsimp. rewrite cos_PI3. apply vec_ext; vunf; lra.
Qed.
Lemma mb_rel c r i : minus (ring_point c (fmul r (fsin (to_radians (fofZ 60)))) (fneg (fmul r (fcos (to_radians (fofZ 60))))) (72 * Z.of_nat i)) c
  = low_ring r (2 * Z.of_nat i).
Proof.
  replace (72 * Z.of_nat i)%Z with (36 * (2 * Z.of_nat i))%Z by lia.
  rewrite sixty, ring_rel. unfold low_ring. rsimp. rewrite cos_PI3. apply vec_ext; vunf; lra.
Qed.

Lemma s60 : sin (PI / 3) * sin (PI / 3) = 3 / 4.
Proof. pose proof (sin2_cos2 (PI / 3)) as H. rewrite cos_PI3 in H. unfold Rsqr in H. lra. Qed.
Lemma s60_pos : 0 < sin (PI / 3).
Proof. apply sin_gt_0; pose proof PI_RGT_0; lra. Qed.

Lemma ring_len r k : dot (top_ring r k) (top_ring r k) = r * r /\ dot (low_ring r k) (low_ring r k) = r * r.
Proof.
  unfold top_ring, low_ring. vunf. pose proof (e_unit k) as E. pose proof s60 as S.
  generalize dependent (sin (PI / 3)). intros s S. generalize dependent (ex k). generalize dependent (ey k). intros y x E.
  split.
  - transitivity (r * r * (s * s) * (x * x + y * y) + r * r / 4); [field|]. rewrite S, E. field.
  - transitivity (r * r * (s * s) * (x * x + y * y) + r * r / 4); [field|]. rewrite S, E. field.
Qed.

Ltac ring_shape k :=
  let H1 := fresh in let H2 := fresh in let H3 := fresh in let H4 := fresh in
  destruct (e_next k) as [H1 H2]; destruct (e_prev k) as [H3 H4];
  pose proof (e_unit k) as EU; pose proof s60 as ES; pose proof cs36 as EC; pose proof s36_pos as P1; pose proof c36_pos as P2;
  pose proof s60_pos as P3;
  unfold det3, top_ring, low_ring, pole; vunf; rewrite ?H1, ?H2, ?H3, ?H4; clear H1 H2 H3 H4;
  set (x := ex k) in *; set (y := ey k) in *; set (s := sin (PI / 3)) in *; set (sn := s36) in *; set (cs := c36) in *;
  clearbody x y s sn cs.

(** top cap, bottom cap, and the two kinds of side triangles, around ring position k *)
Lemma det_top r k : 0 < r -> 0 < det3 (top_ring r (k + 1)) (top_ring r (k - 1)) (pole r).
Proof.
  intros Hr. ring_shape k.
  replace (_ + _ + _) with (2 * r * (r * r) * (s * s) * sn * cs * (x * x + y * y)) by ring.
  rewrite ES, EU. assert (Q1 : 0 < r * (r * r)) by (do 2 (apply Rmult_lt_0_compat; try assumption)). assert (Q2 : 0 < sn * cs) by (apply Rmult_lt_0_compat; assumption).
  pose proof (Rmult_lt_0_compat _ _ Q1 Q2). lra.
Qed.
Lemma det_bottom r k : 0 < r -> 0 < det3 (low_ring r (k - 1)) (low_ring r (k + 1)) (times (-1) (pole r)).
Proof.
  intros Hr. ring_shape k.
  replace (_ + _ + _) with (2 * r * (r * r) * (s * s) * sn * cs * (x * x + y * y)) by ring.
  rewrite ES, EU. assert (Q1 : 0 < r * (r * r)) by (do 2 (apply Rmult_lt_0_compat; try assumption)). assert (Q2 : 0 < sn * cs) by (apply Rmult_lt_0_compat; assumption).
  pose proof (Rmult_lt_0_compat _ _ Q1 Q2). lra.
Qed.
Lemma det_down r k : 0 < r -> 0 < det3 (top_ring r (k - 1)) (top_ring r (k + 1)) (low_ring r k).
Proof.
  intros Hr. ring_shape k.
  replace (_ + _ + _) with (r * (r * r) * (s * s) * sn * (1 + cs) * (x * x + y * y)) by field.
  rewrite ES, EU. assert (Q1 : 0 < r * (r * r)) by (do 2 (apply Rmult_lt_0_compat; try assumption)). assert (Q2 : 0 < sn * (1 + cs)) by (apply Rmult_lt_0_compat; [assumption|lra]).
  pose proof (Rmult_lt_0_compat _ _ Q1 Q2). lra.
Qed.
Lemma det_up r k : 0 < r -> 0 < det3 (low_ring r (k + 1)) (low_ring r (k - 1)) (top_ring r k).
Proof.
  intros Hr. ring_shape k.
  replace (_ + _ + _) with (r * (r * r) * (s * s) * sn * (1 + cs) * (x * x + y * y)) by field.
  rewrite ES, EU. assert (Q1 : 0 < r * (r * r)) by (do 2 (apply Rmult_lt_0_compat; try assumption)). assert (Q2 : 0 < sn * (1 + cs)) by (apply Rmult_lt_0_compat; [assumption|lra]).
  pose proof (Rmult_lt_0_compat _ _ Q1 Q2). lra.
Qed.

(** adding whole turns to a ring position *)
Lemma top_turn r k : top_ring r (k + 10) = top_ring r k.
Proof. unfold top_ring. destruct (e_full k) as [-> ->]. reflexivity. Qed.
Lemma low_turn r k : low_ring r (k + 10) = low_ring r k.
Proof. unfold low_ring. destruct (e_full k) as [-> ->]. reflexivity. Qed.

Definition rel (c : VecR) (t : @Tri3 NumR) : VecR * VecR * VecR := let '(a, b, d) := t in (minus a c, minus b c, minus d c).
Lemma icosahedron_rel c r : map (rel c) (icosahedron c r) =
  base_triangles (pole r) (times (-1) (pole r)) (fun i => top_ring r (2 * Z.of_nat i + 1)) (fun i => low_ring r (2 * Z.of_nat i)).
Proof.
  assert (P1 : minus (vadd (V3 f0 f0 r) c) c = pole r) by (unfold pole; dvec; apply vec_ext; vunf; field).
  assert (P2 : minus (vadd (V3 f0 f0 (fneg r)) c) c = times (-1) (pole r)) by (unfold pole; dvec; apply vec_ext; vunf; field).
  unfold icosahedron, base_triangles. cbv zeta. cbn [map rel].
  rewrite P1, P2, !mt_rel, !mb_rel. reflexivity.
Qed.

Definition good_rel (r : R) (t : VecR * VecR * VecR) : Prop :=
  let '(a, b, d) := t in (dot a a = r * r /\ dot b b = r * r /\ dot d d = r * r) /\ 0 < det3 a b d.
Lemma good_of_rel c r t : good_rel r (rel c t) -> good c r t.
Proof. destruct t as [[a b] d]. exact (fun H => H). Qed.
Lemma pole_len r : dot (pole r) (pole r) = r * r /\ dot (times (-1) (pole r)) (times (-1) (pole r)) = r * r.
Proof. unfold pole. vunf. split; ring. Qed.
Lemma icosahedron_good c r : 0 < r -> Forall (good c r) (icosahedron c r).
Proof.
  intros Hr. enough (G : Forall (good_rel r) (map (rel c) (icosahedron c r))).
  { rewrite Forall_map in G. eapply Forall_impl; [|exact G]. intros t. apply good_of_rel. }
  rewrite icosahedron_rel. unfold base_triangles. destruct (pole_len r) as [L1 L2].
  repeat (apply Forall_cons; [unfold good_rel; split; [repeat split; first [assumption|apply ring_len]|]|]); [..|constructor].
  - rewrite <- (top_turn r (2 * Z.of_nat 0 + 1)). apply (det_top r 10 Hr).
  - apply (det_top r 8 Hr).
  - apply (det_top r 6 Hr).
  - apply (det_top r 4 Hr).
  - apply (det_top r 2 Hr).
  - apply (det_bottom r 1 Hr).
  - apply (det_bottom r 3 Hr).
  - apply (det_bottom r 5 Hr).
  - apply (det_bottom r 7 Hr).
  - rewrite <- (low_turn r (2 * Z.of_nat 0)). apply (det_bottom r 9 Hr).
  - rewrite <- (top_turn r (2 * Z.of_nat 0 + 1)), <- (low_turn r (2 * Z.of_nat 0)). apply (det_down r 10 Hr).
  - apply (det_down r 2 Hr).
  - apply (det_down r 4 Hr).
  - apply (det_down r 6 Hr).
  - apply (det_down r 8 Hr).
  - apply (det_up r 1 Hr).
  - apply (det_up r 3 Hr).
  - apply (det_up r 5 Hr).
  - apply (det_up r 7 Hr).
  - rewrite <- (low_turn r (2 * Z.of_nat 0)). apply (det_up r 9 Hr).
Qed.

(** every direction is in the cone of one of the twenty triangles *)
Lemma cone_fan (b0 b2 t u : VecR) (k1 k2 : R) p q z d : 0 < k1 -> 0 < k2 ->
  times k1 t = plus (plus b0 b2) (times k2 u) -> 0 <= p -> 0 <= q -> 0 <= z ->
  d = plus (plus (times p b0) (times q t)) (times (- z) u) ->
  cone b0 b2 t d \/ cone b0 b2 (times (-1) u) d.
Proof.
  intros K1 K2 Et Hp Hq Hz Ed.
  assert (I1 : 0 < / k1) by (apply Rinv_0_lt_compat; assumption).
  assert (I2 : 0 < / k2) by (apply Rinv_0_lt_compat; assumption).
  pose proof (f_equal vx Et) as X; pose proof (f_equal vy Et) as Y; pose proof (f_equal vz Et) as Z. clear Et.
  assert (W : 0 <= z / k2) by (unfold Rdiv; nra).
  destruct (Rle_dec (k1 * (z / k2)) q) as [C|C].
  - left. exists (p + z / k2), (z / k2), (q - k1 * (z / k2)). repeat split; try lra.
    rewrite Ed. clear Ed. dvec. vunf.
    assert (X' : u_x = (k1 * t_x - b0_x - b2_x) / k2) by (apply Rmult_eq_reg_l with k2; [|lra]; field_simplify; lra).
    assert (Y' : u_y = (k1 * t_y - b0_y - b2_y) / k2) by (apply Rmult_eq_reg_l with k2; [|lra]; field_simplify; lra).
    assert (Z' : u_z = (k1 * t_z - b0_z - b2_z) / k2) by (apply Rmult_eq_reg_l with k2; [|lra]; field_simplify; lra).
    rewrite X', Y', Z'. apply vec_ext; cbn [vx vy vz]; field; lra.
  - right. exists (p + q / k1), (q / k1), (z - k2 * (q / k1)).
    assert (0 <= q / k1) by (unfold Rdiv; nra).
    assert (k2 * (q / k1) <= z).
    { apply Rmult_le_reg_l with (k1 * / k2); [nra|]. replace (k1 * / k2 * (k2 * (q / k1))) with q by (field; lra). unfold Rdiv in C. lra. }
    repeat split; try lra.
    rewrite Ed. clear Ed. dvec. vunf.
    assert (X' : t_x = (b0_x + b2_x + k2 * u_x) / k1) by (apply Rmult_eq_reg_l with k1; [|lra]; field_simplify; lra).
    assert (Y' : t_y = (b0_y + b2_y + k2 * u_y) / k1) by (apply Rmult_eq_reg_l with k1; [|lra]; field_simplify; lra).
    assert (Z' : t_z = (b0_z + b2_z + k2 * u_z) / k1) by (apply Rmult_eq_reg_l with k1; [|lra]; field_simplify; lra).
    rewrite X', Y', Z'. apply vec_ext; cbn [vx vy vz]; field; lra.
Qed.

Lemma sector (x y : R) : exists k p q, (0 <= k < 10)%Z /\ 0 <= p /\ 0 <= q /\
  x = p * ex k + q * ex (k + 1) /\ y = p * ey k + q * ey (k + 1).
Proof.
  set (g := fun k => x * ey k - y * ex k).
  assert (G5 : forall k, g (k + 5)%Z = - g k).
  { intros k. unfold g. destruct (e_half k) as [-> ->]. ring. }
  assert (K : exists k, (0 <= k < 10)%Z /\ 0 <= g k /\ g (k + 1)%Z <= 0).
  { assert (A : forall b, 0 <= g b -> (0 <= b <= 5)%Z -> exists k, (0 <= k < 10)%Z /\ 0 <= g k /\ g (k + 1)%Z <= 0).
    { intros b Hb Hr. pose proof (G5 b) as E.
      destruct (Rle_dec (g (b + 1)%Z) 0) as [C|C]; [exists b; split; [lia|lra]|].
      destruct (Rle_dec (g (b + 1 + 1)%Z) 0) as [C1|C1]; [exists (b + 1)%Z; split; [lia|lra]|].
      destruct (Rle_dec (g (b + 1 + 1 + 1)%Z) 0) as [C2|C2]; [exists (b + 1 + 1)%Z; split; [lia|lra]|].
      destruct (Rle_dec (g (b + 1 + 1 + 1 + 1)%Z) 0) as [C3|C3]; [exists (b + 1 + 1 + 1)%Z; split; [lia|lra]|].
      exists (b + 1 + 1 + 1 + 1)%Z. split; [lia|]. split; [lra|].
      replace (b + 1 + 1 + 1 + 1 + 1)%Z with (b + 5)%Z by lia. lra. }
    destruct (Rle_dec 0 (g 0%Z)) as [C|C]; [apply (A 0%Z C); lia|].
    apply (A 5%Z); [|lia]. pose proof (G5 0%Z) as E. cbn [Z.add] in E. lra. }
  destruct K as (k & Hk & H0 & H1). exists k, (- g (k + 1)%Z / s36), (g k / s36).
  pose proof s36_pos as P. assert (I : 0 < / s36) by (apply Rinv_0_lt_compat; exact P).
  split; [exact Hk|]. split; [unfold Rdiv; nra|]. split; [unfold Rdiv; nra|].
  unfold g. destruct (e_next k) as [-> ->]. pose proof (e_unit k) as U.
  clear - P U. set (a := ex k) in *. set (b := ey k) in *. clearbody a b.
  split.
  - transitivity (x * (a * a + b * b)); [rewrite U; ring|]. field. lra.
  - transitivity (y * (a * a + b * b)); [rewrite U; ring|]. field. lra.
Qed.

Lemma ring_fan r k : times (2 * c36) (top_ring r (k + 1)) = plus (plus (low_ring r k) (low_ring r (k + 2))) (times (1 + c36) (pole r)) /\
  times (2 * c36) (low_ring r k) = plus (plus (top_ring r (k + 1)) (top_ring r (k - 1))) (times (1 + c36) (times (-1) (pole r))) /\
  times (2 * c36) (top_ring r k) = plus (plus (low_ring r (k + 1)) (low_ring r (k - 1))) (times (1 + c36) (pole r)) /\
  times (2 * c36) (low_ring r (k + 1)) = plus (plus (top_ring r k) (top_ring r (k + 2))) (times (1 + c36) (times (-1) (pole r))).
Proof.
  replace (k + 2)%Z with (k + 1 + 1)%Z by lia.
  destruct (e_next k) as [H1 H2]. destruct (e_next (k + 1)) as [H3 H4]. destruct (e_prev k) as [H5 H6].
  pose proof cs36 as EC.
  unfold top_ring, low_ring, pole. rewrite H3, H4, H5, H6, H1, H2. clear H1 H2 H3 H4 H5 H6.
  set (x := ex k) in *; set (y := ey k) in *; set (s := sin (PI / 3)) in *; set (sn := s36) in *; set (cs := c36) in *;
  clearbody x y s sn cs.
  assert (Es : sn * sn = 1 - cs * cs) by lra.
  repeat split; apply vec_ext; vunf; try field; ring_simplify; replace (sn ^ 2) with (1 - cs * cs) by (rewrite <- Es; ring); ring.
Qed.

Lemma cover_even r k p q z : 0 < r -> 0 <= p -> 0 <= q ->
  let d := pt (p * ex k + q * ex (k + 1)) (p * ey k + q * ey (k + 1)) z in
  cone (low_ring r k) (low_ring r (k + 2)) (top_ring r (k + 1)) d \/
  cone (low_ring r k) (low_ring r (k + 2)) (times (-1) (pole r)) d \/
  cone (top_ring r (k + 1)) (top_ring r (k - 1)) (low_ring r k) d \/
  cone (top_ring r (k + 1)) (top_ring r (k - 1)) (pole r) d.
Proof.
  intros Hr Hp Hq d. pose proof s60_pos as P3. pose proof c36_pos as P2. set (m := r * sin (PI / 3)).
  assert (Hm : 0 < m) by (apply Rmult_lt_0_compat; assumption). assert (Im : 0 < / m) by (apply Rinv_0_lt_compat; exact Hm).
  destruct (ring_fan r k) as (F1 & F2 & _ & _).
  assert (Hpm : 0 <= p / m) by (unfold Rdiv; nra). assert (Hqm : 0 <= q / m) by (unfold Rdiv; nra).
  assert (Ir : 0 < / r) by (apply Rinv_0_lt_compat; exact Hr).
  set (z' := (z - (q / m - p / m) * (r / 2)) / r).
  assert (Ed : d = plus (plus (times (p / m) (low_ring r k)) (times (q / m) (top_ring r (k + 1)))) (times z' (pole r))).
  { unfold d, z', low_ring, top_ring, pole. fold m. generalize (ex k) (ey k) (ex (k + 1)) (ey (k + 1)). intros.
    clearbody m. apply vec_ext; vunf; field; lra. }
  destruct (Rle_dec z' 0) as [C|C].
  - destruct (cone_fan _ _ _ _ (2 * c36) (1 + c36) (p / m) (q / m) (- z') d ltac:(lra) ltac:(lra) F1 Hpm Hqm ltac:(lra)) as [H|H]; [|tauto|tauto].
    rewrite Ed. rewrite Ropp_involutive. reflexivity.
  - destruct (cone_fan _ _ _ _ (2 * c36) (1 + c36) (q / m) (p / m) z' d ltac:(lra) ltac:(lra) F2 Hqm Hpm ltac:(lra)) as [H|H]; [|tauto|].
    + rewrite Ed. generalize (low_ring r k) (top_ring r (k + 1)) (pole r) (p / m) (q / m). clearbody z'. clear. intros. dvec. apply vec_ext; vunf; ring.
    + replace (times (-1) (times (-1) (pole r))) with (pole r) in H by (unfold pole; apply vec_ext; vunf; ring). tauto.
Qed.
Lemma cover_odd r k p q z : 0 < r -> 0 <= p -> 0 <= q ->
  let d := pt (p * ex k + q * ex (k + 1)) (p * ey k + q * ey (k + 1)) z in
  cone (low_ring r (k + 1)) (low_ring r (k - 1)) (top_ring r k) d \/
  cone (low_ring r (k + 1)) (low_ring r (k - 1)) (times (-1) (pole r)) d \/
  cone (top_ring r k) (top_ring r (k + 2)) (low_ring r (k + 1)) d \/
  cone (top_ring r k) (top_ring r (k + 2)) (pole r) d.
Proof.
  intros Hr Hp Hq d. pose proof s60_pos as P3. pose proof c36_pos as P2. set (m := r * sin (PI / 3)).
  assert (Hm : 0 < m) by (apply Rmult_lt_0_compat; assumption). assert (Im : 0 < / m) by (apply Rinv_0_lt_compat; exact Hm).
  destruct (ring_fan r k) as (_ & _ & F1 & F2).
  assert (Hpm : 0 <= p / m) by (unfold Rdiv; nra). assert (Hqm : 0 <= q / m) by (unfold Rdiv; nra).
  assert (Ir : 0 < / r) by (apply Rinv_0_lt_compat; exact Hr).
  set (z' := (z - (p / m - q / m) * (r / 2)) / r).
  assert (Ed : d = plus (plus (times (q / m) (low_ring r (k + 1))) (times (p / m) (top_ring r k))) (times z' (pole r))).
  { unfold d, z', low_ring, top_ring, pole. fold m. generalize (ex k) (ey k) (ex (k + 1)) (ey (k + 1)). intros.
    clearbody m. apply vec_ext; vunf; field; lra. }
  destruct (Rle_dec z' 0) as [C|C].
  - destruct (cone_fan _ _ _ _ (2 * c36) (1 + c36) (q / m) (p / m) (- z') d ltac:(lra) ltac:(lra) F1 Hqm Hpm ltac:(lra)) as [H|H]; [|tauto|tauto].
    rewrite Ed. rewrite Ropp_involutive. reflexivity.
  - destruct (cone_fan _ _ _ _ (2 * c36) (1 + c36) (p / m) (q / m) z' d ltac:(lra) ltac:(lra) F2 Hpm Hqm ltac:(lra)) as [H|H]; [|tauto|].
    + rewrite Ed. generalize (low_ring r (k + 1)) (top_ring r k) (pole r) (p / m) (q / m). clearbody z'. clear. intros. dvec. apply vec_ext; vunf; ring.
    + replace (times (-1) (times (-1) (pole r))) with (pole r) in H by (unfold pole; apply vec_ext; vunf; ring). tauto.
Qed.
Lemma cone_swap a b c d : cone a b c d -> cone b a c d.
Proof. intros (p & q & s & Hp & Hq & Hs & ->). exists q, p, s. repeat split; try assumption. dvec. apply vec_ext; vunf; ring. Qed.

Definition cone3 (t : VecR * VecR * VecR) : VecR -> Prop := let '(a, b, d) := t in cone a b d.
Lemma icosahedron_cover c r d : 0 < r -> Exists (fun t => cone_of c t d) (icosahedron c r).
Proof.
  intros Hr. enough (G : Exists (fun t => cone3 t d) (map (rel c) (icosahedron c r))).
  { apply Exists_exists in G. destruct G as (t & Hin & Ht). apply in_map_iff in Hin. destruct Hin as (t' & <- & Hin).
    apply Exists_exists. exists t'. split; [exact Hin|]. destruct t' as [[a b] e]. exact Ht. }
  rewrite icosahedron_rel.
  destruct (sector (vx d) (vy d)) as (k & p & q & Hk & Hp & Hq & Ex & Ey).
  assert (Ed : d = pt (p * ex k + q * ex (k + 1)) (p * ey k + q * ey (k + 1)) (vz d)) by (apply vec_ext; [exact Ex|exact Ey|reflexivity]).
  pose proof (cover_even r k p q (vz d) Hr Hp Hq) as CE. pose proof (cover_odd r k p q (vz d) Hr Hp Hq) as CO.
  cbv zeta in CE, CO. rewrite <- Ed in CE, CO. clear Ed Ex Ey. apply Exists_exists.
  assert (K : k = 0%Z \/ k = 1%Z \/ k = 2%Z \/ k = 3%Z \/ k = 4%Z \/ k = 5%Z \/ k = 6%Z \/ k = 7%Z \/ k = 8%Z \/ k = 9%Z) by lia.
  destruct K as [->|[->|[->|[->|[->|[->|[->|[->|[->| ->]]]]]]]]].
  - cbn [Z.add Z.sub Z.opp Z.pos_sub Pos.add Pos.succ Pos.pred_double Pos.add_carry] in CE.
    rewrite <- (top_turn r (-1)) in CE. cbn [Z.add Z.pos_sub Pos.add Pos.pred_double Pos.pred Pos.succ] in CE.
    destruct CE as [H|[H|[H|H]]].
    + eexists. split; [do 15 right; left; reflexivity|apply cone_swap; exact H].
    + eexists. split; [do 5 right; left; reflexivity|exact H].
    + eexists. split; [do 10 right; left; reflexivity|apply cone_swap; exact H].
    + eexists. split; [left; reflexivity|exact H].
  - cbn [Z.add Z.sub Z.opp Z.pos_sub Pos.add Pos.succ Pos.pred_double Pos.add_carry] in CO.
    destruct CO as [H|[H|[H|H]]].
    + eexists. split; [do 15 right; left; reflexivity|exact H].
    + eexists. split; [do 5 right; left; reflexivity|apply cone_swap; exact H].
    + eexists. split; [do 11 right; left; reflexivity|exact H].
    + eexists. split; [do 4 right; left; reflexivity|apply cone_swap; exact H].
  - cbn [Z.add Z.sub Z.opp Z.pos_sub Pos.add Pos.succ Pos.pred_double Pos.add_carry] in CE.
    destruct CE as [H|[H|[H|H]]].
    + eexists. split; [do 16 right; left; reflexivity|apply cone_swap; exact H].
    + eexists. split; [do 6 right; left; reflexivity|exact H].
    + eexists. split; [do 11 right; left; reflexivity|apply cone_swap; exact H].
    + eexists. split; [do 4 right; left; reflexivity|exact H].
  - cbn [Z.add Z.sub Z.opp Z.pos_sub Pos.add Pos.succ Pos.pred_double Pos.add_carry] in CO.
    destruct CO as [H|[H|[H|H]]].
    + eexists. split; [do 16 right; left; reflexivity|exact H].
    + eexists. split; [do 6 right; left; reflexivity|apply cone_swap; exact H].
    + eexists. split; [do 12 right; left; reflexivity|exact H].
    + eexists. split; [do 3 right; left; reflexivity|apply cone_swap; exact H].
  - cbn [Z.add Z.sub Z.opp Z.pos_sub Pos.add Pos.succ Pos.pred_double Pos.add_carry] in CE.
    destruct CE as [H|[H|[H|H]]].
    + eexists. split; [do 17 right; left; reflexivity|apply cone_swap; exact H].
    + eexists. split; [do 7 right; left; reflexivity|exact H].
    + eexists. split; [do 12 right; left; reflexivity|apply cone_swap; exact H].
    + eexists. split; [do 3 right; left; reflexivity|exact H].
  - cbn [Z.add Z.sub Z.opp Z.pos_sub Pos.add Pos.succ Pos.pred_double Pos.add_carry] in CO.
    destruct CO as [H|[H|[H|H]]].
    + eexists. split; [do 17 right; left; reflexivity|exact H].
    + eexists. split; [do 7 right; left; reflexivity|apply cone_swap; exact H].
    + eexists. split; [do 13 right; left; reflexivity|exact H].
    + eexists. split; [do 2 right; left; reflexivity|apply cone_swap; exact H].
  - cbn [Z.add Z.sub Z.opp Z.pos_sub Pos.add Pos.succ Pos.pred_double Pos.add_carry] in CE.
    destruct CE as [H|[H|[H|H]]].
    + eexists. split; [do 18 right; left; reflexivity|apply cone_swap; exact H].
    + eexists. split; [do 8 right; left; reflexivity|exact H].
    + eexists. split; [do 13 right; left; reflexivity|apply cone_swap; exact H].
    + eexists. split; [do 2 right; left; reflexivity|exact H].
  - cbn [Z.add Z.sub Z.opp Z.pos_sub Pos.add Pos.succ Pos.pred_double Pos.add_carry] in CO.
    destruct CO as [H|[H|[H|H]]].
    + eexists. split; [do 18 right; left; reflexivity|exact H].
    + eexists. split; [do 8 right; left; reflexivity|apply cone_swap; exact H].
    + eexists. split; [do 14 right; left; reflexivity|exact H].
    + eexists. split; [do 1 right; left; reflexivity|apply cone_swap; exact H].
  - cbn [Z.add Z.sub Z.opp Z.pos_sub Pos.add Pos.succ Pos.pred_double Pos.add_carry] in CE.
    change (low_ring r 10) with (low_ring r (0 + 10)) in CE. rewrite (low_turn r 0) in CE.
    destruct CE as [H|[H|[H|H]]].
    + eexists. split; [do 19 right; left; reflexivity|apply cone_swap; exact H].
    + eexists. split; [do 9 right; left; reflexivity|exact H].
    + eexists. split; [do 14 right; left; reflexivity|apply cone_swap; exact H].
    + eexists. split; [do 1 right; left; reflexivity|exact H].
  - cbn [Z.add Z.sub Z.opp Z.pos_sub Pos.add Pos.succ Pos.pred_double Pos.add_carry] in CO.
    change (low_ring r 10) with (low_ring r (0 + 10)) in CO. rewrite (low_turn r 0) in CO.
    change (top_ring r 11) with (top_ring r (1 + 10)) in CO. rewrite (top_turn r 1) in CO.
    destruct CO as [H|[H|[H|H]]].
    + eexists. split; [do 19 right; left; reflexivity|exact H].
    + eexists. split; [do 9 right; left; reflexivity|apply cone_swap; exact H].
    + eexists. split; [do 10 right; left; reflexivity|exact H].
    + eexists. split; [left; reflexivity|apply cone_swap; exact H].
Qed.
