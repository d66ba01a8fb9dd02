(** * DaylightProofs: the shape and the composition of daylight-coefficient matrices (any arithmetic) *)
From Verif Require Import Num Geometry Colour ColourMatrix SpecMatrix MatrixProofs Ray Material Scene Samplers Primitives RayTracer TracerProofs Daylight.

Section Compose.
  Context {N : Num} {T : Trig N} {E : Ext} {RG : Gen N} {O : Geo}.

  (** a row of n bins *)
  Definition row_shaped (n : nat) (c : Contribution) : Prop := sized c /\ m_rows c = 1%nat /\ m_cols c = n.
  Lemma row_new n : row_shaped n (mat_new BLACK 1 n).
  Proof. split; [apply mat_new_sized|]. split; reflexivity. Qed.
  Lemma reach_sky_step d r c c' : reach_sky d r c = Ret c' -> row_shaped (m_cols c) c ->
    row_shaped (m_cols c) c' /\ (dir_to_bin (dc_reinhart d) (direction (r_geometry r)) < m_cols c)%nat /\
    forall j, (j < m_cols c)%nat -> exists old, mat_get c 0 j = Some old /\
      mat_get c' 0 j = Some (if Nat.eqb j (dir_to_bin (dc_reinhart d) (direction (r_geometry r)))
                             then sadd old (sdivf (smul ONE (r_colour r)) (fofZ (Z.of_nat (dc_n_ambient_samples d)))) else old).
  Proof.
    unfold reach_sky. set (b := dir_to_bin _ _). intros H (S1 & S2 & _).
    destruct (mat_get c 0 b) as [old|] eqn:G; cbn [ret_opt obind] in H; [|discriminate].
    assert (Hb : (b < m_cols c)%nat).
    { unfold mat_get in G. destruct (Nat.ltb_spec b (m_cols c)); [assumption|]. destruct (Nat.ltb _ _); discriminate. }
    destruct (mat_set_some c 0 b (sadd old (sdivf (smul ONE (r_colour r)) (fofZ (Z.of_nat (dc_n_ambient_samples d))))) S1) as (m' & E1 & Q1 & Q2 & Q3 & Q4); [lia|exact Hb|].
    rewrite E1 in H. cbn [ret_opt] in H. injection H as <-. split; [split; [exact Q1|split; congruence]|]. split; [exact Hb|].
    intros j Hj. destruct (mat_get_some c 0 j S1) as [v Ev]; [lia|exact Hj|]. exists v. split; [exact Ev|].
    rewrite Q4 by lia. cbn [Nat.eqb andb]. destruct (Nat.eqb_spec j b) as [->|]; [congruence|exact Ev].
  Qed.

  (** what a traced ray may do to a contribution: a sequence of deposits, each by a ray satisfying I *)
  Inductive deposited (d : DCFactory) (I : Ray -> Prop) : Contribution -> Contribution -> Prop :=
  | deposit_none c : deposited d I c c
  | deposit_more r c c' c'' : I r -> reach_sky d r c = Ret c' -> deposited d I c' c'' -> deposited d I c c''.
  Lemma deposited_trans d I c c' c'' : deposited d I c c' -> deposited d I c' c'' -> deposited d I c c''.
  Proof. induction 1; [auto|]. intros. eapply deposit_more; eauto. Qed.
  Lemma deposited_shape d I n c c' : deposited d I c c' -> row_shaped n c -> row_shaped n c'.
  Proof.
    induction 1 as [|r c c' c'' _ H1 _ IH]; [auto|]. intros S. pose proof S as (_ & _ & <-). apply IH. apply (reach_sky_step _ _ _ _ H1 S).
  Qed.

  (** an invariant I of the rays, kept by everything that happens to a ray *)
  Section Invariant.
    Variables (d : DCFactory) (s : Scene) (fuel : nat) (I : Ray -> Prop).
    Hypothesis I_value : forall r v, I r -> I (set_value r v).
    Hypothesis I_depth : forall r v, I r -> I (set_depth r v).
    Hypothesis I_shading : forall r x, I r -> I (set_shading r x).
    Hypothesis I_cast : forall r aux hit r' nodes, I r -> cast_ray fuel s r aux = Ret (hit, r', nodes) -> I r'.
    Hypothesis I_paths : forall r aux i r1 nodes m normals p1 p2 nr b, I r -> cast_ray fuel s r aux = Ret (Some i, r1, nodes) ->
      hit_material s r1 (Z.to_nat i) = Ret (Some m) -> nth_error (a_norm (sc_arrays s)) (Z.to_nat i) = Some normals ->
      specular_only m = true ->
      let '(pt, normal, _, _) := get_triad r1 in
      get_possible_paths m normal pt (set_shading r1 (interpolate_normal (x_shading (r_interaction r1)) normals)) = Ret (p1, p2) ->
      (p1 = Some (nr, b) \/ p2 = Some (nr, b)) -> I (set_colour nr (smul (r_colour nr) b)).
    Hypothesis I_sample : forall r aux i r1 nodes m normals, I r -> cast_ray fuel s r aux = Ret (Some i, r1, nodes) ->
      hit_material s r1 (Z.to_nat i) = Ret (Some m) -> nth_error (a_norm (sc_arrays s)) (Z.to_nat i) = Some normals ->
      emits_direct_light m = false -> specular_only m = false ->
      let '(pt, _, _, _) := get_triad r1 in
      let '(_, normal, e1, e2) := get_triad (set_shading r1 (interpolate_normal (x_shading (r_interaction r1)) normals)) in
      forall r2 g v w r3 g', I r2 -> sample_bsdf_draw fuel m normal e1 e2 pt r2 g = Ret (v, w, r3, g') ->
        I (set_colour r3 (smul (r_colour r3) (sdivf (smulf v (fabs (vdot normal (direction (r_geometry r3))))) w))).

    Definition keeps_inv (trace : DCTrace) : Prop := forall r c aux g r' c' aux' g',
      I r -> trace r c aux g = Ret (r', c', aux', g') -> I r' /\ deposited d I c c'.
    Lemma ambient_inv trace m pt normal e1 e2 : keeps_inv trace ->
      (forall r2 g v w r3 g', I r2 -> sample_bsdf_draw fuel m normal e1 e2 pt r2 g = Ret (v, w, r3, g') ->
        I (set_colour r3 (smul (r_colour r3) (sdivf (smulf v (fabs (vdot normal (direction (r_geometry r3))))) w)))) ->
      forall n r c aux g r' c' aux' g', I r -> dc_ambient trace fuel m pt normal e1 e2 n r c aux g = Ret (r', c', aux', g') -> I r' /\ deposited d I c c'.
    Proof.
      intros HT HS. induction n as [|n IH]; intros r c aux g r' c' aux' g' Hr H; cbn [dc_ambient] in H.
      - injection H as <- <- <- <-. split; [exact Hr|constructor].
      - destruct (sample_bsdf_draw _ _ _ _ _ _ _ _) as [[[[v w] r1] g1]| |] eqn:SB; cbn [obind] in H; try discriminate. cbv zeta in H.
        set (r2 := set_depth _ _) in H. assert (I2 : I r2) by (apply I_depth; eapply HS; eassumption). clearbody r2.
        destruct (trace r2 c aux g1) as [[[[r3 c3] a3] g3]| |] eqn:TR; cbn [obind] in H; try discriminate.
        destruct (HT _ _ _ _ _ _ _ _ I2 TR) as [I3 D3]. destruct (IH _ _ _ _ _ _ _ _ I3 H) as [I4 D4]. split; [exact I4|].
        eapply deposited_trans; eassumption.
    Qed.
    Lemma path_inv trace p c aux g c' aux' g' : keeps_inv trace ->
      (forall nr b, p = Some (nr, b) -> I (set_colour nr (smul (r_colour nr) b))) ->
      dc_specular_path trace d p c aux g = Ret (c', aux', g') -> deposited d I c c'.
    Proof.
      intros HT HP H. destruct p as [[nr b]|]; cbn [dc_specular_path] in H; [|injection H as <- <- <-; constructor].
      specialize (HP nr b eq_refl). set (r1 := set_colour nr _) in *. clearbody r1. cbv zeta in H. destruct (gen g) as [q g1].
      match type of H with context [trace ?r c aux g1] => assert (I2 : I r) by (destruct (fltb _ _); [apply I_depth|]; apply I_value; exact HP); destruct (trace r c aux g1) as [[[[r3 c3] a3] g3]| |] eqn:TR end;
        cbn [obind] in H; try discriminate. injection H as <- <- <-. apply (HT _ _ _ _ _ _ _ _ I2 TR).
    Qed.
    Lemma dc_trace_inv : forall nest, keeps_inv (dc_trace nest fuel d s).
    Proof.
      induction nest as [|nest IH]; intros r c aux g r' c' aux' g' Hr H; cbn [dc_trace] in H; [discriminate|].
      destruct (cast_ray fuel s r (h_nodes aux)) as [[[hit r1] nodes]| |] eqn:CR; cbn [obind] in H; try discriminate. cbv zeta in H.
      pose proof (I_cast _ _ _ _ _ Hr CR) as I1.
      destruct hit as [i|].
      2:{ destruct (reach_sky d r1 c) as [c1| |] eqn:RS; cbn [obind] in H; try discriminate. injection H as <- <- <- <-.
          split; [exact I1|]. eapply deposit_more; [exact I1|exact RS|constructor]. }
      destruct (Nat.ltb (dc_max_depth d) (r_depth r1)) eqn:DP; [injection H as <- <- <- <-; split; [exact I1|constructor]|].
      destruct (hit_material s r1 (Z.to_nat i)) as [[m|]| |] eqn:HM; cbn [obind] in H; try discriminate.
      2:{ injection H as <- <- <- <-; split; [exact I1|constructor]. }
      cbn [orb] in H. destruct (emits_direct_light m) eqn:EM; [injection H as <- <- <- <-; split; [exact I1|constructor]|].
      destruct (get_triad r1) as [[[pt normal] e1] e2] eqn:TG.
      destruct (nth_error (a_norm (sc_arrays s)) (Z.to_nat i)) as [normals|] eqn:NN; cbn [ret_opt obind] in H; [|discriminate].
      set (r2 := set_shading r1 (interpolate_normal (x_shading (r_interaction r1)) normals)) in *.
      destruct (specular_only m) eqn:SP.
      - destruct (get_possible_paths m normal pt r2) as [[p1 p2]| |] eqn:PP; cbn [obind] in H; try discriminate.
        assert (HP : forall nr b, p1 = Some (nr, b) \/ p2 = Some (nr, b) -> I (set_colour nr (smul (r_colour nr) b))).
        { intros nr b HQ. pose proof (I_paths _ _ _ _ _ _ _ p1 p2 nr b Hr CR HM NN SP) as K. rewrite TG in K. apply K; [exact PP|exact HQ]. }
        destruct (dc_specular_path _ d p1 c _ g) as [[[c1 a1] g1]| |] eqn:P1; cbn [obind] in H; try discriminate.
        destruct (dc_specular_path _ d p2 c1 a1 g1) as [[[c2 a2] g2]| |] eqn:P2; cbn [obind] in H; try discriminate.
        injection H as <- <- <- <-. split.
        + apply I_shading. exact I1.
        + eapply deposited_trans; [eapply path_inv; [exact IH| |exact P1]|eapply path_inv; [exact IH| |exact P2]]; intros; apply HP; auto.
      - pose proof (I_sample _ _ _ _ _ _ _ Hr CR HM NN EM SP) as K. rewrite TG in K. fold r2 in K.
        destruct (draw_n_ambient_samples (dc_tracer d) r2 g) as [[n r3] g3] eqn:DN.
        assert (I3 : I r3 /\ get_triad r3 = get_triad r2).
        { revert DN. unfold draw_n_ambient_samples, get_n_ambient_samples. destruct (gen g) as [q1 gg].
          repeat match goal with |- context [if ?b then _ else _] => destruct b end; intros DN; inversion DN; subst; 
            (split; [try apply I_value; apply I_shading; exact I1|reflexivity]). }
        destruct I3 as [I3 TE]. unfold store_ray in H. match type of H with context [if ?b then _ else _] => destruct b end; cbn [obind] in H; [|discriminate].
        rewrite TE in H. destruct (get_triad r2) as [[[pt2 normal2] e12] e22] eqn:TG2.
        eapply ambient_inv; [exact IH|exact K|exact I3|exact H].
    Qed.
  End Invariant.

  (** ** sums of rows *)
  Lemma mat_add_shape n a b c : row_shaped n a -> row_shaped n b -> mat_add a b = Ret c ->
    row_shaped n c /\ forall j, (j < n)%nat -> exists x y, mat_get a 0 j = Some x /\ mat_get b 0 j = Some y /\ mat_get c 0 j = Some (sadd x y).
  Proof.
    intros (S1 & R1 & C1) (S2 & R2 & C2) H. unfold mat_add in H. rewrite R1, R2, C1, C2, !Nat.eqb_refl in H. cbn [andb] in H. injection H as <-.
    unfold sized in S1, S2. rewrite R1, C1 in S1. rewrite R2, C2 in S2.
    split; [repeat split; unfold sized; cbn [m_data m_rows m_cols]; rewrite map_length, combine_length, S1, S2; lia|].
    intros j Hj. unfold mat_get. cbn [m_data m_rows m_cols]. rewrite R1, R2, C1, C2. destruct (Nat.ltb_spec j n); [|lia]. cbn [Nat.ltb Nat.leb andb Nat.mul Nat.add].
    destruct (nth_error (m_data a) j) as [x|] eqn:E1; [|apply nth_error_None in E1; lia].
    destruct (nth_error (m_data b) j) as [y|] eqn:E2; [|apply nth_error_None in E2; lia].
    exists x, y. do 2 (split; [reflexivity|]). rewrite nth_error_map.
    assert (K : nth_error (combine (m_data a) (m_data b)) j = Some (x, y)).
    { clear - E1 E2. revert E1 E2. generalize (m_data a) (m_data b). induction j as [|j IH]; intros [|u l] [|v l'] E1 E2; cbn in *; try discriminate; [congruence|auto]. }
    rewrite K. reflexivity.
  Qed.
  Lemma mat_add_returns n a b : row_shaped n a -> row_shaped n b -> exists c, mat_add a b = Ret c /\ row_shaped n c.
  Proof.
    intros Ha Hb. pose proof Ha as (_ & R1 & C1). pose proof Hb as (_ & R2 & C2).
    assert (K : exists c, mat_add a b = Ret c) by (unfold mat_add; rewrite R1, R2, C1, C2, !Nat.eqb_refl; cbn [andb]; eauto).
    destruct K as [c K]. exists c. split; [exact K|]. apply (mat_add_shape _ _ _ _ Ha Hb K).
  Qed.
  (** entry j of the sum is the sum of the entries, from the left *)
  Lemma add_all_entries n : forall l acc, row_shaped n acc -> Forall (row_shaped n) l ->
    exists c, add_all acc l = Ret c /\ row_shaped n c /\
    forall j, (j < n)%nat -> exists x ys, mat_get acc 0 j = Some x /\ map (fun c => mat_get c 0 j) l = map Some ys /\
      mat_get c 0 j = Some (fold_left sadd ys x).
  Proof.
    induction l as [|b l IH]; intros acc Ha HL.
    - exists acc. split; [reflexivity|]. split; [exact Ha|]. intros j Hj. destruct Ha as (S1 & R1 & C1). destruct (mat_get_some acc 0 j S1) as [x Ex]; [lia|lia|].
      exists x, []. auto.
    - inversion_clear HL as [|? ? Hb Hl]. destruct (mat_add_returns n acc b Ha Hb) as (a1 & E1 & H1).
      destruct (IH a1 H1 Hl) as (c & E2 & Hc & HE). exists c. cbn [add_all]. rewrite E1. cbn [obind]. split; [exact E2|]. split; [exact Hc|].
      intros j Hj. destruct (mat_add_shape n acc b a1 Ha Hb E1) as [_ K]. destruct (K j Hj) as (x & y & Ex & Ey & Exy).
      destruct (HE j Hj) as (x' & ys & Ex' & Eys & Er). rewrite Exy in Ex'. injection Ex' as <-. exists x, (y :: ys). cbn [map fold_left]. rewrite Ey, Eys. auto.
  Qed.

  (** ** maps whose calls may panic *)
  Lemma map_out_ret {A B} (f : nat -> A -> outcome B) : forall l i ys, map_out f i l = Ret ys <->
    length ys = length l /\ forall k x y, nth_error l k = Some x -> nth_error ys k = Some y -> f (i + k)%nat x = Ret y.
  Proof.
    induction l as [|x l IH]; intros i ys; cbn [map_out].
    - split; [intros H; injection H as <-; split; [reflexivity|intros [|k]; discriminate]|]. intros [H _]. destruct ys; [reflexivity|discriminate].
    - split.
      + destruct (f i x) as [y| |] eqn:Fx; cbn [obind]; try discriminate. destruct (map_out f (S i) l) as [ys'| |] eqn:M; cbn [obind]; try discriminate.
        intros H. injection H as <-. apply IH in M as [M1 M2]. split; [cbn; congruence|]. intros [|k] x' y' Hx Hy; cbn in Hx, Hy.
        * rewrite Nat.add_0_r. congruence.
        * replace (i + S k)%nat with (S i + k)%nat by lia. eauto.
      + intros [HL HF]. destruct ys as [|y ys]; [discriminate|]. pose proof (HF 0%nat x y eq_refl eq_refl) as H0. rewrite Nat.add_0_r in H0. rewrite H0. cbn [obind].
        replace (map_out f (S i) l) with (Ret ys); [reflexivity|]. symmetry. apply IH. split; [cbn in HL; lia|]. intros k x' y' Hx Hy.
        replace (S i + k)%nat with (i + S k)%nat by lia. apply HF; assumption.
  Qed.

  (** ** one primary ray, one sensor, the matrix *)
  Lemma dc_primary_shape nest fuel d s r g c : dc_primary nest fuel d s r g = Ret c -> row_shaped (n_bins (dc_reinhart d)) c.
  Proof.
    unfold dc_primary. destruct (dc_trace _ _ _ _ _ _ _ _) as [[[[r' c'] a'] g']| |] eqn:TR; cbn [obind]; try discriminate. intros H. injection H as <-.
    assert (HD : deposited d (fun _ => True) (mat_new BLACK 1 (n_bins (dc_reinhart d))) c').
    { refine (proj2 (dc_trace_inv d s fuel (fun _ => True) _ _ _ _ _ _ nest _ _ _ _ _ _ _ _ Logic.I TR)); auto.
      - intros. destruct (get_triad r1) as [[[? ?] ?] ?]. auto.
      - intros. destruct (get_triad r1) as [[[? ?] ?] ?]. destruct (get_triad (set_shading _ _)) as [[[? ?] ?] ?]. auto. }
    eapply deposited_shape; [exact HD|apply row_new].
  Qed.
  Lemma dc_sensor_sum nest fuel d s ray g seeds c : dc_sensor nest fuel d s ray g seeds = Ret c <->
    exists e2 rows, get_perpendicular (direction ray) = Some e2 /\
      length rows = dc_n_ambient_samples d /\
      (forall k l row, nth_error (draw_directions (dc_n_ambient_samples d) g) k = Some l -> nth_error rows k = Some row ->
         dc_primary nest fuel d s (primary_ray (vcross e2 (direction ray)) e2 (direction ray) (origin ray) l) (seeds k) = Ret row) /\
      add_all (mat_new BLACK 1 (n_bins (dc_reinhart d))) rows = Ret c.
  Proof.
    assert (DL : forall n g, length (draw_directions n g) = n).
    { induction n as [|n IH]; intros g0; cbn [draw_directions]; [reflexivity|]. destruct (gen g0) as [a g1], (gen g1) as [b g2]. cbn. rewrite IH. reflexivity. }
    unfold dc_sensor. cbv zeta. destruct (get_perpendicular (direction ray)) as [e2|] eqn:GP; cbn [ret_opt obind].
    2:{ split; [discriminate|]. intros (? & ? & H & _). discriminate. }
    split.
    - destruct (map_out _ 0 _) as [rows| |] eqn:M; cbn [obind]; try discriminate. intros H. apply map_out_ret in M as [M1 M2].
      exists e2, rows. split; [reflexivity|]. split; [rewrite M1; apply DL|]. split; [exact M2|exact H].
    - intros (e2' & rows & Q1 & Q2 & Q3 & Q4). injection Q1 as <-.
      replace (map_out _ 0 _) with (Ret rows); [exact Q4|]. symmetry. apply map_out_ret. split; [rewrite Q2; symmetry; apply DL|]. intros k x y. cbn [Nat.add]. apply Q3.
  Qed.
  Lemma nth_error_same_length {A B} (l : list A) (l' : list B) k x : length l = length l' -> nth_error l k = Some x -> exists y, nth_error l' k = Some y.
  Proof.
    intros HL H. assert (K : (k < length l')%nat) by (rewrite <- HL; apply nth_error_Some; congruence). apply nth_error_Some in K. destruct (nth_error l' k); [eauto|contradiction].
  Qed.
  Lemma dc_sensor_shape nest fuel d s ray g seeds c : dc_sensor nest fuel d s ray g seeds = Ret c -> row_shaped (n_bins (dc_reinhart d)) c.
  Proof.
    intros H. apply dc_sensor_sum in H as (e2 & rows & _ & HL & HR & HA).
    assert (F : Forall (row_shaped (n_bins (dc_reinhart d))) rows).
    { apply Forall_forall. intros row Hin. apply In_nth_error in Hin as [k Hk].
      destruct (nth_error_same_length rows (draw_directions (dc_n_ambient_samples d) g) k row) as [l Hl]; [|exact Hk|].
      - rewrite HL. clear. revert g. generalize (dc_n_ambient_samples d). induction n as [|n IH]; intros g; cbn [draw_directions]; [reflexivity|].
        destruct (gen g) as [a g1], (gen g1) as [b g2]. cbn. rewrite <- IH. reflexivity.
      - eapply dc_primary_shape. eapply HR; eassumption. }
    destruct (add_all_entries _ rows _ (row_new _) F) as (c' & E1 & E2 & _). rewrite HA in E1. injection E1 as <-. exact E2.
  Qed.

  (** the matrix is made of the rows of the sensors *)
  Lemma calc_dc_spec nest fuel d rays s seed seeds :
    (forall dcs, map_out (fun i ray => dc_sensor nest fuel d s ray (seed i) (seeds i)) 0 rays = Ret dcs ->
       exists m, calc_dc nest fuel d rays s seed seeds = Ret m /\ sized m /\ m_rows m = length rays /\ m_cols m = n_bins (dc_reinhart d) /\
         forall i j row, nth_error dcs i = Some row -> (j < n_bins (dc_reinhart d))%nat -> mat_get m i j = mat_get row 0 j) /\
    (forall m, calc_dc nest fuel d rays s seed seeds = Ret m ->
       exists dcs, map_out (fun i ray => dc_sensor nest fuel d s ray (seed i) (seeds i)) 0 rays = Ret dcs).
  Proof.
    split.
    - intros dcs HM. unfold calc_dc. rewrite HM. cbn [obind]. apply map_out_ret in HM as [HL HR]. 
      assert (SH : forall i row, nth_error dcs i = Some row -> row_shaped (n_bins (dc_reinhart d)) row).
      { intros i row Hi. destruct (nth_error_same_length dcs rays i row HL Hi) as [x Hx]. pose proof (HR i x row Hx Hi) as K. eapply dc_sensor_shape. exact K. }
      set (nb := n_bins (dc_reinhart d)) in *. rewrite HL.
      set (g := fun r c => run contribution <- ret_opt (nth_error dcs r) ;; ret_opt (mat_get contribution 0 c)).
      set (h := fun r c => match g r c with Ret v => v | _ => BLACK end).
      assert (G : forall r c, (r < length rays)%nat -> (c < nb)%nat -> g r c = Ret (h r c)).
      { intros r c Hr Hc. unfold h, g. rewrite <- HL in Hr. apply nth_error_Some in Hr. destruct (nth_error dcs r) as [row|] eqn:Er; [|contradiction]. cbn [ret_opt obind].
        destruct (SH _ _ Er) as (S1 & R1 & C1). destruct (mat_get_some row 0 c S1) as [v Ev]; [lia|lia|]. rewrite Ev. reflexivity. }
      destruct (fill_matrix h (length rays) nb BLACK g G) as (m & E1 & E2 & E3 & E4 & E5).
      exists m. split; [|split; [exact E2|split; [exact E3|split; [exact E4|]]]].
      + rewrite <- E1. 
        assert (FE : forall n i (b1 b2 : nat -> Contribution -> outcome Contribution) x, (forall j y, (i <= j < i + n)%nat -> b1 j y = b2 j y) -> for_range i n b1 x = for_range i n b2 x).
        { induction n as [|n IH]; intros i b1 b2 x HB; cbn [for_range]; [reflexivity|]. rewrite HB by lia. destruct (b2 i x); cbn [obind]; auto. apply IH. intros; apply HB; lia. }
        apply FE. intros i y Hi. unfold g. assert (Hi' : (i < length dcs)%nat) by lia. apply nth_error_Some in Hi'. destruct (nth_error dcs i) as [row|] eqn:Er; [|contradiction].
        cbn [ret_opt obind]. apply FE. intros; reflexivity.
      + intros i j row Hi Hj. assert (Hi' : (i < length rays)%nat) by (rewrite <- HL; apply nth_error_Some; congruence).
        rewrite (E5 i j Hi' Hj). pose proof (G i j Hi' Hj) as K. unfold g in K. rewrite Hi in K. cbn [ret_opt obind] in K.
        destruct (mat_get row 0 j); cbn [ret_opt] in K; [congruence|discriminate].
    - intros m H. unfold calc_dc in H. destruct (map_out _ 0 rays) as [dcs| |]; cbn [obind] in H; try discriminate. eauto.
  Qed.
End Compose.
