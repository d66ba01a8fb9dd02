(** * C92: specular light paths can be walked backwards *)
From Verif Require Import NumR Geometry Triangle Ray Colour Samplers Material SpecGeom SpecColour SpecOptics TriangleProofs ColourProofs MaterialProofs P_Material.
Open Scope R_scope.

(** the state of light between two surfaces: its direction and the refraction index of the medium *)
Definition Beam : Type := (VecR * R)%type.
Definition opposite (d : VecR) : VecR := times (-1) d.
Definition backwards (b : Beam) : Beam := (opposite (fst b), snd b).
Inductive kind := Reflected | Transmitted.
Definition pick_path (k : kind) (paths : @Path NumR * @Path NumR) : @Path NumR := match k with Reflected => fst paths | Transmitted => snd paths end.
Definition carries (ray : RayTR) (b : Beam) : Prop := dir_of ray = fst b /\ r_refraction_index ray = snd b.
(** a material turns beam b into beam b' at a surface of normal n, weighing it by v *)
Definition bounce (m : @Material NumR) (n : VecR) (k : kind) (b b' : Beam) (v : SpecR) : Prop :=
  forall p ray, carries ray b -> exists paths ray', get_possible_paths m n p ray = Ret paths /\ pick_path k paths = Some (ray', v) /\ carries ray' b'.
(** a beam that comes from the side the normal points to; at a dielectric it travels in air or in the dielectric, and what leaves does not graze the surface *)
Definition arrives (m : @Material NumR) (n : VecR) (b b' : Beam) : Prop :=
  unit (fst b) /\ unit n /\ dot (fst b) n < 0 /\ 0 < snd b /\
  match m with
  | Dielectric _ ri => 0 < ri /\ 1 / 10000000 <= Rabs (1 - ri) /\ (snd b = 1 \/ snd b = ri) /\ dot (fst b') n <> 0
  | _ => True
  end.
(** the normal seen on the way back *)
Definition normal_back (k : kind) (n : VecR) : VecR := match k with Reflected => n | Transmitted => opposite n end.

Lemma dot_opposite d n : dot (opposite d) n = - dot d n.
Proof. unfold opposite. dvec. vunf. ring. Qed.
Lemma dot_opposite_r d n : dot d (opposite n) = - dot d n.
Proof. unfold opposite. dvec. vunf. ring. Qed.
Lemma unit_opposite d : unit d -> unit (opposite d).
Proof. unfold unit, opposite. intros H. rewrite <- H. dvec. vunf. ring. Qed.
Lemma opposite_twice d : opposite (opposite d) = d.
Proof. unfold opposite. apply vec_ext; dvec; vunf; ring. Qed.
Lemma mirrored_opposite v n : unit v -> unit n -> mirror_direction (opposite (mirror_direction v n)) n = opposite v.
Proof.
  intros U V. destruct (C18_reflection v n U V) as (Um & _ & _ & _ & B). cbv zeta in *.
  rewrite (mirror_value (opposite (mirror_direction v n)) n (unit_opposite _ Um) V). rewrite <- B at 2. rewrite (mirror_value (mirror_direction v n) n Um V).
  unfold mirrored, opposite. generalize (mirror_direction v n). intros w. apply vec_ext; dvec; vunf; ring.
Qed.
Lemma cos_and_n_abs d d' (n1 : R) n n' (ri : R) : Rabs (dot d n) = Rabs (dot d' n') -> @cos_and_n NumR d n1 n ri = @cos_and_n NumR d' n1 n' ri.
Proof. intros H. unfold cos_and_n. cbv zeta. rewrite !vdot_dot. change (@fabs NumR) with Rabs. rewrite H. reflexivity. Qed.
Lemma glass_refl_trans_abs c ri n d n' d' (x : R) : Rabs (dot n d) = Rabs (dot n' d') -> @glass_refl_trans NumR TrigR c ri n d x = @glass_refl_trans NumR TrigR c ri n' d' x.
Proof. intros H. unfold glass_refl_trans. cbv zeta. rewrite !vdot_dot. change (@fabs NumR) with Rabs. rewrite H. reflexivity. Qed.
Lemma dot_comm_r a b : dot a b = dot b a. Proof. dvec. vunf. ring. Qed.
Lemma fresnel_sym n1 c1 n2 c2 : fresnel n1 c1 n2 c2 = fresnel n2 c2 n1 c1.
Proof.
  unfold fresnel, R_s, R_p. f_equal. f_equal.
  - replace ((n2 * c2 - n1 * c1) / (n2 * c2 + n1 * c1)) with (- ((n1 * c1 - n2 * c2) / (n1 * c1 + n2 * c2))); [apply Rsqr_neg|].
    rewrite (Rplus_comm (n2 * c2)). unfold Rdiv. ring.
  - replace ((n1 * c2 - n2 * c1) / (n1 * c2 + n2 * c1)) with (- ((n2 * c1 - n1 * c2) / (n2 * c1 + n1 * c2))); [apply Rsqr_neg|].
    rewrite (Rplus_comm (n1 * c2)). unfold Rdiv. ring.
Qed.

(** what the transmitted path of a dielectric is *)
Lemma dielectric_through colour ri n p ray p1 ray2 v2 :
  get_possible_paths (Dielectric colour ri) n p ray = Ret (p1, Some (ray2, v2)) ->
  exists n1 c1 n2 c2, @cos_and_n NumR (dir_of ray) (r_refraction_index ray) n ri = (n1, c1, n2, Some c2) /\
    dir_of ray2 = fresnel_transmission_dir (dir_of ray) n n1 c1 n2 c2 /\ r_refraction_index ray2 = n2 /\
    v2 = smulf (snd (dielectric_refl_trans colour n1 c1 n2 (Some c2))) c2.
Proof.
  cbn [get_possible_paths]. unfold dielectric_paths. cbv zeta. fold (dir_of ray). destruct (@cos_and_n NumR (dir_of ray) (r_refraction_index ray) n ri) as [[[n1 c1] n2] c2] eqn:Q. intros H. exists n1, c1, n2.
  destruct (dielectric_refl_trans colour n1 c1 n2 c2) as [refl trans] eqn:D.
  destruct c2 as [c2|]; [|discriminate H]. exists c2. split; [reflexivity|]. rewrite D.
  assert (X := f_equal (fun o => match o with Ret (_, Some (r2, v)) => (dir_of r2, r_refraction_index r2, v) | _ => (dir_of ray, 0, BLACK) end) H). cbn beta iota in X.
  split; [exact (eq_sym (f_equal (fun z => fst (fst z)) X))|]. split; [exact (eq_sym (f_equal (fun z => snd (fst z)) X))|exact (eq_sym (f_equal snd X))].
Qed.
Lemma tangent_opposite d n : tangent d (opposite n) = tangent d n.
Proof. unfold tangent, opposite. apply vec_ext; dvec; vunf; ring. Qed.
Lemma tangent_back d n : tangent (opposite d) n = opposite (tangent d n).
Proof. unfold tangent, opposite. apply vec_ext; dvec; vunf; ring. Qed.
Lemma by_parts a b n : dot a n = dot b n -> tangent a n = tangent b n -> a = b.
Proof.
  intros D Q. unfold tangent in Q. rewrite D in Q. revert Q. generalize (times (dot b n) n). clear. intros w Q.
  transitivity (plus (minus a w) w); [apply vec_ext; dvec; vunf; ring|]. rewrite Q. apply vec_ext; dvec; vunf; ring.
Qed.
Lemma sin_of_inj a b : 0 <= a <= 1 -> 0 <= b <= 1 -> sin_of a = sin_of b -> a = b.
Proof.
  intros A B H. unfold sin_of in H. apply sqrt_inj in H; [|nra|nra]. nra.
Qed.
Lemma sin_lt_1 c : 0 < c <= 1 -> sin_of c < 1.
Proof. intros H. unfold sin_of. apply Rlt_le_trans with (sqrt 1); [|rewrite sqrt_1; lra]. apply sqrt_lt_1_alt. split; nra. Qed.
Lemma smulf_smulf (c : SpecR) (x y : R) : smulf (smulf c x) y = smulf c (x * y : R).
Proof. destruct c as [r g b]. unfold smulf, smap. cbn [Colour.sr Colour.sg Colour.sb]. rsimp. f_equal; ring. Qed.

Lemma mirror_values c n p (ray : RayTR) : exists ray', get_possible_paths (Mirror c) n p ray = Ret (Some (ray', smulf (smulf ONE (1 / Rabs (dot (dir_of ray) n))) (Rabs (dot n (mirror_direction (dir_of ray) n)))), None) /\
  carries ray' (mirror_direction (dir_of ray) n, r_refraction_index ray).
Proof.
  cbn [get_possible_paths]. unfold mirror_paths, mirror_bsdf. cbv zeta. eexists. split.
  - cbn [set_ray3d set_geometry r_geometry direction]. fold (dir_of ray). rewrite !vdot_dot. change (@fabs NumR) with Rabs.
    replace (@fdiv NumR f1 (Rabs (dot (dir_of ray) n))) with (1 / Rabs (dot (dir_of ray) n) : R); [reflexivity|].
    change (@f1 NumR) with (1 / 1). cbn [fdiv NumR]. unfold Rdiv. rewrite Rinv_1. ring.
  - split; reflexivity.
Qed.

(** one step back *)
Theorem C92_step_back : forall m n k b b' v, arrives m n b b' -> bounce m n k b b' v ->
  exists v', bounce m (normal_back k n) k (backwards b') (backwards b) v' /\ arrives m (normal_back k n) (backwards b') (backwards b) /\
    smulf v (Rsqr (snd b / snd b')) = smulf v' (Rsqr (snd b' / snd b)).
Proof.
  intros m n k [d i] [d' i'] v (U & V & D & I & HM) HB. unfold backwards. cbn [fst snd] in *.
  destruct (HB (pt 0 0 0) (mkRay (mkRay3D (pt 0 0 1) d) i (r_interaction slanted_ray) 0 1 ONE) (conj eq_refl eq_refl)) as (paths & ray' & HP & HK & (HD & HI)). cbn [fst snd] in HD, HI.
  set (ray := mkRay _ _ _ _ _ _) in *. assert (RD : dir_of ray = d) by reflexivity. assert (RI : r_refraction_index ray = i) by reflexivity. clearbody ray.
  destruct k; cbn [normal_back].
  - (* reflected *)
    destruct paths as [p1 p2]. cbn [pick_path fst] in HK. subst p1.
    destruct (C18_reflected_paths m n (pt 0 0 0) ray _ _ ltac:(rewrite RD; exact U) V HP) as (r1 & v1 & E1 & E2 & _ & E4 & _). injection E1 as <- <-.
    rewrite RD in E2. rewrite HD in E2. rewrite RI, HI in E4. clear HD HI. subst d' i'.
    destruct (C18_reflection d n U V) as (Um & _ & Dm & _ & _). cbv zeta in Um, Dm. set (w := mirror_direction d n) in *.
    assert (AB : Rabs (dot (opposite w) n) = Rabs (dot d n)) by (rewrite dot_opposite, Dm, Ropp_involutive; reflexivity).
    exists v. split; [|split].
    + intros p back (BD & BI). cbn [fst snd] in BD, BI. destruct m as [c s r|c s r|c|c|c refraction_index|c refraction_index]; try discriminate HP.
      * destruct (mirror_values c n p back) as (b1 & X & Y). destruct (mirror_values c n (pt 0 0 0) ray) as (r1' & X' & _). rewrite X' in HP.
        assert (VV : smulf (smulf ONE (1 / Rabs (dot (dir_of ray) n))) (Rabs (dot n (mirror_direction (dir_of ray) n))) = v).
        { exact (f_equal (fun o => match o with Ret (Some (_, z), _) => z | _ => BLACK end) HP). }
        rewrite X. eexists _, b1. split; [reflexivity|]. cbn [pick_path fst]. split; [|].
        -- f_equal. f_equal. rewrite <- VV, BD, RD, AB. f_equal. unfold w. rewrite (mirrored_opposite d n U V). fold w.
           rewrite (dot_comm_r n (opposite d)), (dot_comm_r n w), dot_opposite, Rabs_Ropp, Dm, Rabs_Ropp. reflexivity.
        -- destruct Y as [Y1 Y2]. split; cbn [fst snd] in *; [rewrite Y1, BD; apply mirrored_opposite; assumption|rewrite Y2; exact BI].
      * cbn [get_possible_paths] in HP |- *. unfold dielectric_paths in HP |- *. cbv zeta in HP |- *. fold (dir_of ray) in HP. fold (dir_of back). rewrite RD, RI in HP. rewrite BD, BI.
        rewrite (cos_and_n_abs _ _ i _ _ _ AB). destruct (@cos_and_n NumR d i n _) as [[[n1 c1] n2] c2]. destruct (dielectric_refl_trans c n1 c1 n2 c2) as [refl trans].
        assert (VV := f_equal (fun o => match o with Ret (Some (_, z), _) => z | _ => BLACK end) HP). cbn beta iota in VV. rewrite VV.
        eexists _, _. split; [reflexivity|]. split; [reflexivity|]. split; [exact (mirrored_opposite d n U V)|exact BI].
      * cbn [get_possible_paths] in HP |- *. unfold glass_paths in HP |- *. cbv zeta in HP |- *. fold (dir_of ray) in HP. fold (dir_of back). rewrite RD, RI in HP. rewrite BD, BI.
        rewrite (cos_and_n_abs _ _ i _ _ _ AB). destruct (@cos_and_n NumR d i n _) as [[[n1 c1] n2] c2].
        rewrite (glass_refl_trans_abs _ _ n (opposite w) n d c1) by (rewrite (dot_comm_r n (opposite w)), (dot_comm_r n d); exact AB).
        destruct (glass_refl_trans _ _ n d c1) as [refl trans].
        assert (VV := f_equal (fun o => match o with Ret (Some (_, z), _) => z | _ => BLACK end) HP). cbn beta iota in VV. rewrite VV.
        eexists _, _. split; [reflexivity|]. split; [reflexivity|]. split; [exact (mirrored_opposite d n U V)|exact BI].
    + split; [apply unit_opposite; exact Um|]. split; [exact V|]. split; [cbn [fst]; rewrite dot_opposite; lra|]. split; [exact I|]. destruct m; try exact Logic.I.
      destruct HM as (H1 & H2 & H3 & H4). cbn [fst snd]. rewrite dot_opposite. repeat split; try assumption. lra.
    + reflexivity.
  - (* transmitted *)
    destruct paths as [p1 p2]. cbn [pick_path snd] in HK. subst p2. destruct m as [c s r|c s r|c|c|c refraction_index|c refraction_index]; try discriminate HP.
    + (* dielectric *)
      destruct HM as (H1 & H2 & H3 & H4).
      destruct (C22_paths c refraction_index n (pt 0 0 0) ray ltac:(rewrite RD; exact U) V ltac:(rewrite RD; exact D) ltac:(rewrite RI; exact I) H1) as (r1 & v1 & q2 & E & _ & _ & Tir & _ & Some2).
      rewrite HP in E. assert (Q2 := f_equal (fun o => match o with Ret (_, z) => z | _ => None end) E). cbn beta iota in Q2. subst q2. clear E. rewrite RD, RI in *.
      destruct (dielectric_through _ _ _ _ _ _ _ _ HP) as (n1 & c1 & n2 & c2 & CN & DD & II & _). rewrite RD, RI in CN. rewrite RD in DD.
      destruct (C19_snell d n i refraction_index U V I H1) as (c2' & CN' & _ & Sn). rewrite CN in CN'. injection CN' as -> -> -> <-.
      destruct (C21_refraction d n i refraction_index _ _ c2 U V ltac:(lra) I H1 CN) as (T1 & T2 & T3 & T4 & T5 & _). rewrite <- DD in T1, T2, T3, T4, T5. rewrite HD in *. clear DD.
      rewrite HI in II. clear HI. subst i'. set (n2 := beyond i refraction_index) in *. assert (Pn : 0 < n2) by (unfold n2, beyond; destruct (Rlt_dec _ _); lra).
      assert (D' : dot d' n < 0) by lra. rewrite (Rabs_left (dot d n)) in * by lra. rewrite (Rabs_left (dot d' n)) in T4 by lra.
      assert (BB : beyond n2 refraction_index = i).
      { unfold n2. destruct H3 as [->| ->]; [rewrite (proj2 (C19_leaves_to_air 1 refraction_index) H2); apply C19_leaves_to_air; reflexivity|].
        rewrite (proj1 (C19_leaves_to_air refraction_index refraction_index) eq_refl). apply C19_leaves_to_air. exact H2. }
      pose proof (unit_dot d n U V) as UD. pose proof (unit_dot d' n T1 V) as UD'.
      assert (LT : i * sin_of (- dot d n) < n2).
      { rewrite T4. assert (X : sin_of (- dot d' n) < 1); [|nra]. apply sin_lt_1; lra. }
      destruct (Some2 LT) as (r2 & w2 & c2' & E2 & C2 & S2 & D2 & _ & _ & _ & _ & _ & V2). injection E2 as <- <-. rewrite HD in D2. assert (c2' = - dot d' n) as -> by lra.
      set (cc := - dot d n) in *. set (cc' := - dot d' n) in *.
      assert (LT' : n2 * sin_of cc' < i). { rewrite <- T4. assert (X : sin_of cc < 1); [|nra]. apply sin_lt_1; unfold cc; lra. }
      exists (smulf c ((1 - fresnel i cc n2 cc') * Rsqr (i / n2))). split; [|split].
      * intros p back (BD & BI). cbn [fst snd] in BD, BI.
        assert (ND : dot (opposite d') (opposite n) = dot d' n) by (rewrite dot_opposite, dot_opposite_r; ring).
        destruct (C22_paths c refraction_index (opposite n) p back ltac:(rewrite BD; apply unit_opposite; exact T1) (unit_opposite n V) ltac:(rewrite BD, ND; exact D') ltac:(rewrite BI; exact Pn) H1) as (b1 & w1 & q2 & E & _ & _ & _ & _ & Some2').
        rewrite BD, BI, ND, BB in *. fold cc' in Some2'. destruct (Some2' LT') as (b2 & w2 & c1' & -> & C1 & S1 & D1 & _ & _ & I1 & _ & _ & V1).
        destruct (dielectric_through _ _ _ _ _ _ _ _ E) as (m1 & e1 & m2 & e2 & CN2 & DD2 & _ & _). rewrite BD, BI in CN2. rewrite BD in DD2.
        destruct (C19_snell (opposite d') (opposite n) n2 refraction_index (unit_opposite _ T1) (unit_opposite _ V) Pn H1) as (e2' & CN2' & _ & _). rewrite CN2 in CN2'. injection CN2' as -> -> -> <-.
        destruct (C21_refraction (opposite d') (opposite n) n2 refraction_index _ _ e2 (unit_opposite _ T1) (unit_opposite _ V) ltac:(rewrite ND; lra) Pn H1 CN2) as (_ & _ & _ & _ & T5' & _).
        rewrite <- DD2, BB in T5'.
        assert (CC : c1' = cc).
        { apply sin_of_inj; [lra|unfold cc; lra|]. unfold snell in S1, T4. fold cc in T4. apply Rmult_eq_reg_l with i; [|lra]. rewrite T4. symmetry. exact S1. }
        subst c1'. eexists _, b2. split; [exact E|]. cbn [pick_path snd]. split; [rewrite V1; rewrite (fresnel_sym n2 cc' i cc); reflexivity|].
        split; [|exact I1]. cbn [fst]. apply (by_parts _ _ n).
        -- rewrite dot_opposite. rewrite dot_opposite_r in D1. unfold cc in D1. lra.
        -- rewrite !tangent_opposite, tangent_back, T5 in T5'. rewrite tangent_back, T5'. generalize (tangent d n). clear - I Pn. intros w. unfold opposite. apply vec_ext; dvec; vunf; field; lra.
      * split; [apply unit_opposite; exact T1|]. split; [apply unit_opposite; exact V|]. cbn [fst snd]. split; [rewrite dot_opposite, dot_opposite_r; lra|]. split; [exact Pn|].
        split; [exact H1|]. split; [exact H2|]. split; [unfold n2, beyond; destruct (Rlt_dec _ _); tauto|]. rewrite dot_opposite, dot_opposite_r. lra.
      * rewrite V2, !smulf_smulf. f_equal. unfold Rsqr. field. lra.
    + (* glass *)
      destruct (C23_paths _ _ _ _ _ _ _ HP) as (refl & trans & G & _ & [X|(r2 & X & E1 & _ & E3 & _)] & RZ); [discriminate X|].
      injection X as <- <-. rewrite HD, RD in E1. rewrite HI, RI in E3. clear HD HI. subst d' i'. rewrite RD in G. exists v.
      assert (AB : Rabs (dot (opposite d) (opposite n)) = Rabs (dot d n)) by (rewrite dot_opposite, dot_opposite_r, Ropp_involutive; reflexivity).
      split; [|split].
      * intros p back (BD & BI). cbn [fst snd] in BD, BI.
        assert (HG : exists q, get_possible_paths (Glass c refraction_index) (opposite n) p back = Ret q).
        { cbn [get_possible_paths]. eexists. reflexivity. }
        destruct HG as ([q1 q2] & HG). destruct (C23_paths _ _ _ _ _ _ _ HG) as (refl' & trans' & G' & _ & Y & RZ').
        rewrite BD, AB in G'. rewrite (glass_refl_trans_abs _ _ (opposite n) (opposite d) n d) in G' by (rewrite (dot_comm_r (opposite n)), (dot_comm_r n d); exact AB).
        rewrite G in G'. assert (trans' = v) as -> by exact (eq_sym (f_equal snd G')).
        destruct Y as [->|(b2 & -> & Y1 & _ & Y3 & _)].
        -- exfalso. assert (Z := proj2 RZ (proj1 RZ' eq_refl)). discriminate Z.
        -- eexists _, b2. split; [exact HG|]. split; [reflexivity|]. split; cbn [fst snd]; congruence.
      * split; [apply unit_opposite; exact U|]. split; [apply unit_opposite; exact V|]. split; [cbn [fst]; rewrite dot_opposite, dot_opposite_r; lra|]. split; [exact I|exact Logic.I].
      * reflexivity.
Qed.
Print Assumptions C92_step_back.

(** a route: a sequence of specular events, with the product of their weights *)
Definition event : Type := (@Material NumR * VecR * kind)%type.
Inductive route : Beam -> list event -> Beam -> SpecR -> Prop :=
| route_end b : route b [] b ONE
| route_step m n k b b1 b2 v V es : arrives m n b b1 -> bounce m n k b b1 v -> route b1 es b2 V -> route b ((m, n, k) :: es) b2 (smul v V).
Definition event_back (e : event) : event := let '(m, n, k) := e in (m, normal_back k n, k).

Lemma smul_assoc (a b c : SpecR) : smul a (smul b c) = smul (smul a b) c.
Proof. destruct a, b, c. unfold smul, smap2. cbn. rsimp. f_equal; ring. Qed.
Lemma smul_comm (a b : SpecR) : smul a b = smul b a.
Proof. destruct a, b. unfold smul, smap2. cbn. rsimp. f_equal; ring. Qed.
Lemma smul_one (a : SpecR) : smul ONE a = a.
Proof. destruct a. unfold smul, smap2, ONE. cbn. rsimp. f_equal; field. Qed.
Lemma smulf_smul (a b : SpecR) (x y : R) : smulf (smul a b) (x * y : R) = smul (smulf a x) (smulf b y).
Proof. destruct a, b. unfold smulf, smul, smap, smap2. cbn. rsimp. f_equal; ring. Qed.
Lemma smulf_1 (a : SpecR) (x : R) : x = 1 -> smulf a x = a.
Proof. intros ->. destruct a. unfold smulf, smap. cbn. rsimp. f_equal; ring. Qed.
Lemma route_snoc b es b1 V1 : route b es b1 V1 -> forall m n k b2 v, arrives m n b1 b2 -> bounce m n k b1 b2 v -> route b (es ++ [(m, n, k)]) b2 (smul V1 v).
Proof.
  induction 1 as [b|m n k b b1 b2 v V es A B H IH]; intros m' n' k' b3 v' A' B'; cbn [app].
  - rewrite smul_one. rewrite <- (smul_one v'), (smul_comm ONE v'). econstructor; [exact A'|exact B'|constructor].
  - rewrite <- smul_assoc. econstructor; [exact A|exact B|]. apply IH; assumption.
Qed.
Theorem C92_route_back : forall b es b' V, 0 < snd b -> route b es b' V ->
  exists V', route (backwards b') (rev (map event_back es)) (backwards b) V' /\ 0 < snd b' /\
    smulf V (Rsqr (snd b / snd b')) = smulf V' (Rsqr (snd b' / snd b)).
Proof.
  intros b es b' V P H. induction H as [b|m n k b b1 b2 v V es A B H IH].
  - exists ONE. split; [constructor|]. split; [exact P|]. reflexivity.
  - destruct (C92_step_back m n k b b1 v A B) as (v' & B' & A' & W). assert (P1 : 0 < snd b1) by exact (proj1 (proj2 (proj2 (proj2 A')))).
    destruct (IH P1) as (V' & R' & P2 & W2). exists (smul V' v'). cbn [map rev event_back]. split; [|split; [exact P2|]].
    + eapply route_snoc; eassumption.
    + replace (Rsqr (snd b / snd b2)) with (Rsqr (snd b / snd b1) * Rsqr (snd b1 / snd b2)) by (unfold Rsqr; field; lra).
      replace (Rsqr (snd b2 / snd b)) with (Rsqr (snd b2 / snd b1) * Rsqr (snd b1 / snd b)) by (unfold Rsqr; field; lra).
      rewrite !smulf_smul, W, W2. apply smul_comm.
Qed.
Print Assumptions C92_route_back.
(** between two places in the same medium both ways carry the same share of the light *)
Theorem C92_same_medium : forall b es b' V, 0 < snd b -> snd b' = snd b -> route b es b' V ->
  route (backwards b') (rev (map event_back es)) (backwards b) V.
Proof.
  intros b es b' V P Q H. destruct (C92_route_back b es b' V P H) as (V' & R' & P2 & W). rewrite Q in W.
  assert (X : Rsqr (snd b / snd b) = 1) by (unfold Rsqr; field; lra). rewrite X, !smulf_1 in W by reflexivity. rewrite W. exact R'.
Qed.
Print Assumptions C92_same_medium.

(** non-trivial instances: a slanted ray from air into a body of index 2 and, mirrored, back into air *)
Lemma dielectric_bounce c ri n d i : unit d -> unit n -> dot d n < 0 -> 0 < i -> 0 < ri -> i * sin_of (- dot d n) < beyond i ri ->
  exists b' v, bounce (Dielectric c ri) n Transmitted (d, i) b' v /\ dot (fst b') n < 0 /\ snd b' = beyond i ri.
Proof.
  intros U V D I H1 LT. destruct (C19_snell d n i ri U V I H1) as (c2 & CN & TI & Sn). rewrite Rabs_left in TI, Sn, CN by exact D.
  destruct c2 as [c2|]; [|exfalso; assert (X := proj1 TI eq_refl); lra].
  destruct (C21_refraction d n i ri _ _ c2 U V ltac:(lra) I H1 CN) as (T1 & _ & _ & _ & _ & T6). rewrite Rabs_left in T6 by exact D.
  exists (fresnel_transmission_dir d n i (- dot d n) (beyond i ri) c2, beyond i ri), (smulf (snd (dielectric_refl_trans c i (- dot d n) (beyond i ri) (Some c2))) c2).
  split; [|split; [exact (T6 LT)|reflexivity]]. intros p ray (RD & RI). cbn [fst snd] in RD, RI. cbn [get_possible_paths]. unfold dielectric_paths. cbv zeta. fold (dir_of ray). rewrite RD, RI, CN.
  destruct (dielectric_refl_trans c i (- dot d n) (beyond i ri) (Some c2)) as [refl trans]. eexists _, _. split; [reflexivity|]. split; [reflexivity|]. split; reflexivity.
Qed.
Example C92_hyp : exists b' V, route (slanted, 1) [(Dielectric ONE 2, up, Transmitted)] b' V /\ snd b' = 2.
Proof.
  destruct slanted_ok as (U & V & D). assert (BY : beyond 1 2 = 2) by (apply C19_leaves_to_air; rewrite Rabs_left; lra).
  destruct (dielectric_bounce ONE 2 up slanted 1 U V ltac:(lra) ltac:(lra) ltac:(lra)) as (b' & v & B & G & Q).
  { rewrite BY, D. assert (X : sin_of (- (-4 / 5)) < 1) by (apply sin_lt_1; lra). lra. }
  exists b', (smul v ONE). split; [|congruence]. econstructor; [|exact B|constructor].
  split; [exact U|]. split; [exact V|]. cbn [fst snd]. split; [lra|]. split; [lra|]. split; [lra|]. split; [rewrite Rabs_left; lra|]. split; [left; reflexivity|lra].
Qed.
Example C92_hyp_return : exists b V, route (slanted, 1) [(Dielectric ONE 2, up, Transmitted); (Dielectric ONE 2, up, Transmitted)] b V /\ snd b = 1.
Proof.
  destruct slanted_ok as (U & V & D). assert (BY : beyond 1 2 = 2) by (apply C19_leaves_to_air; rewrite Rabs_left; lra). assert (BY2 : beyond 2 2 = 1) by (apply C19_leaves_to_air; reflexivity).
  destruct (dielectric_bounce ONE 2 up slanted 1 U V ltac:(lra) ltac:(lra) ltac:(lra)) as (b' & v & B & G & Q).
  { rewrite BY, D. assert (X : sin_of (- (-4 / 5)) < 1) by (apply sin_lt_1; lra). lra. }
  assert (A : arrives (Dielectric ONE 2) up (slanted, 1) b').
  { split; [exact U|]. split; [exact V|]. cbn [fst snd]. split; [lra|]. split; [lra|]. split; [lra|]. split; [rewrite Rabs_left; lra|]. split; [left; reflexivity|lra]. }
  destruct (C92_step_back _ _ _ _ _ _ A B) as (v' & B' & A' & _). destruct b' as [d' i']. cbn [fst snd] in *. assert (i' = 2) as -> by congruence.
  destruct A' as (U' & _ & D' & _). unfold backwards in *. cbn [fst snd normal_back] in *. rewrite dot_opposite, dot_opposite_r in D'.
  assert (Ud : unit d') by (rewrite <- (opposite_twice d'); apply unit_opposite; exact U').
  assert (SN : 2 * sin_of (- dot d' up) < 1).
  { destruct (C22_paths ONE 2 up (pt 0 0 0) slanted_ray U V ltac:(change (dir_of slanted_ray) with slanted; lra) ltac:(cbn; lra) ltac:(lra)) as (r1 & v1 & q2 & E & _ & _ & _ & _ & S2).
    change (dir_of slanted_ray) with slanted in *. change (r_refraction_index slanted_ray) with 1 in *. rewrite BY in S2.
    destruct S2 as (r2 & v2 & c2 & -> & C2 & SN & D2 & _); [rewrite D; assert (X : sin_of (- (-4 / 5)) < 1) by (apply sin_lt_1; lra); lra|].
    destruct (B (pt 0 0 0) slanted_ray (conj eq_refl eq_refl)) as (paths & ray' & E' & K & (KD & _)). rewrite E in E'. injection E' as <-. cbn [pick_path snd] in K. injection K as -> _. cbn [fst] in KD.
    rewrite KD in D2. rewrite D2, Ropp_involutive. unfold snell in SN. rewrite D in SN. assert (X : sin_of (- (-4 / 5)) < 1) by (apply sin_lt_1; lra). lra. }
  destruct (dielectric_bounce ONE 2 up d' 2 Ud V ltac:(lra) ltac:(lra) ltac:(lra) ltac:(rewrite BY2; exact SN)) as (b2 & v2 & B2 & G2 & Q2).
  exists b2, (smul v (smul v2 ONE)). split; [|congruence]. econstructor; [exact A|exact B|]. econstructor; [|exact B2|constructor].
  split; [exact Ud|]. split; [exact V|]. cbn [fst snd]. split; [lra|]. split; [lra|]. split; [lra|]. split; [rewrite Rabs_left; lra|]. split; [right; reflexivity|lra].
Qed.
