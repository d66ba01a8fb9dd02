(** * What the reader of Radiance descriptions accepts, and what it builds *)
From Verif Require Import Text TextProofs SpecImage HeaderProofs Scene SpecScene Radiance SpecRadiance RadianceProofs.
Open Scope nat_scope.

Section Accept.
  Context {N : Num} {T : Trig N} {E : Ext}.
  Context (parse : bytes -> option F) (new_source : Vec -> F -> DistantSource3D) (triangulate : list Vec -> option (list Triangle)).
  Hypothesis parse_nil : parse [] = None.
  Let is_utf8 := (fun t => utf8 t = true).

  Lemma zero_ne : lit "0" <> []. Proof. discriminate. Qed.
  (** ** numbers: what they read, that they can be read, that they answer *)
  Lemma expect_inv src rd s rd' rest mods : s <> [] -> reads src rd rest mods -> expect src rd s = Ret rd' ->
    exists rest', split_ws rest = s :: split_ws rest' /\ utf8 s = true /\ reads src rd' rest' mods /\ length rest' < length rest.
  Proof.
    intros NE R. unfold expect. destruct (consume_token src rd) as [[t rd1]| |] eqn:E1; cbn [obind]; try discriminate.
    destruct (bytes_eqb t s) eqn:B; [|discriminate]. intros H. injection H as <-. apply bytes_eqb_eq in B. subst t.
    destruct (token_inv _ _ _ _ _ _ R E1) as [(Q & _)|(_ & U & rest' & S1 & R1 & L1 & _)]; [contradiction|]. eauto 6.
  Qed.
  Lemma expect_ok src rd s rest mods ts : reads src rd rest mods -> split_ws rest = s :: ts -> utf8 s = true ->
    exists rd' rest', expect src rd s = Ret rd' /\ reads src rd' rest' mods /\ split_ws rest' = ts.
  Proof.
    intros R S0 U. destruct (token_next _ _ _ _ _ _ R S0) as (rd' & rest' & R' & S' & _ & _ & _ & E1). unfold expect. rewrite E1, U. cbn [obind].
    rewrite bytes_eqb_refl. eauto.
  Qed.
  Lemma expect_ns src rd s rest mods : reads src rd rest mods -> expect src rd s <> Stuck.
  Proof.
    intros R. unfold expect. pose proof (token_not_stuck _ _ _ _ R). destruct (consume_token src rd) as [[t rd1]| |]; cbn [obind]; try discriminate; [|contradiction].
    destruct (bytes_eqb t s); discriminate.
  Qed.
  Lemma number_inv src rd x rd' rest mods : reads src rd rest mods -> number parse src rd = Ret (x, rd') ->
    exists t rest', split_ws rest = t :: split_ws rest' /\ utf8 t = true /\ parse t = Some x /\ reads src rd' rest' mods /\ length rest' < length rest.
  Proof.
    intros R. unfold number. destruct (consume_token src rd) as [[t rd1]| |] eqn:E1; cbn [obind]; try discriminate.
    destruct (parse t) as [y|] eqn:P; cbn [ret_opt obind]; [|discriminate]. intros H. injection H as <- <-.
    destruct (token_inv _ _ _ _ _ _ R E1) as [(Q & _)|(_ & U & rest' & S1 & R1 & L1 & _)]; [subst t; congruence|]. eauto 8.
  Qed.
  Lemma number_ok src rd rest mods t ts x : reads src rd rest mods -> split_ws rest = t :: ts -> utf8 t = true -> parse t = Some x ->
    exists rd' rest', number parse src rd = Ret (x, rd') /\ reads src rd' rest' mods /\ split_ws rest' = ts.
  Proof.
    intros R S0 U P. destruct (token_next _ _ _ _ _ _ R S0) as (rd' & rest' & R' & S' & _ & _ & _ & E1). unfold number. rewrite E1, U. cbn [obind].
    rewrite P. cbn [ret_opt obind]. eauto.
  Qed.
  Lemma number_ns src rd rest mods : reads src rd rest mods -> number parse src rd <> Stuck.
  Proof.
    intros R. unfold number. pose proof (token_not_stuck _ _ _ _ R). destruct (consume_token src rd) as [[t rd1]| |]; cbn [obind]; try discriminate; [|contradiction].
    destruct (parse t); discriminate.
  Qed.
  Ltac inv_run H :=
    match type of H with
    | obind ?e _ = Ret _ => let Q := fresh "Q" in destruct e as [?a| |] eqn:Q; cbn [obind] in H; try discriminate H
    end.
  Lemma three_inv src rd x y z rd' rest mods : reads src rd rest mods -> three parse src rd = Ret (x, y, z, rd') ->
    exists a b c rest', split_ws rest = [a; b; c] ++ split_ws rest' /\ utf8 a = true /\ utf8 b = true /\ utf8 c = true /\
      parse a = Some x /\ parse b = Some y /\ parse c = Some z /\ reads src rd' rest' mods /\ length rest' < length rest.
  Proof.
    intros R H. unfold three in H. destruct (number parse src rd) as [[x1 rd1]| |] eqn:Q1; cbn [obind] in H; try discriminate.
    destruct (number_inv _ _ _ _ _ _ R Q1) as (a & r1 & S1 & U1 & P1 & R1 & L1).
    destruct (number parse src rd1) as [[x2 rd2]| |] eqn:Q2; cbn [obind] in H; try discriminate.
    destruct (number_inv _ _ _ _ _ _ R1 Q2) as (b & r2 & S2 & U2 & P2 & R2 & L2).
    destruct (number parse src rd2) as [[x3 rd3]| |] eqn:Q3; cbn [obind] in H; try discriminate.
    destruct (number_inv _ _ _ _ _ _ R2 Q3) as (c & r3 & S3 & U3 & P3 & R3 & L3).
    injection H as <- <- <- <-. exists a, b, c, r3. rewrite S1, S2, S3. split; [reflexivity|]. repeat (split; [assumption|]). lia.
  Qed.
  Lemma three_ok src rd rest mods a b c ts x y z : reads src rd rest mods -> split_ws rest = a :: b :: c :: ts -> Forall is_utf8 [a; b; c] ->
    parse a = Some x -> parse b = Some y -> parse c = Some z ->
    exists rd' rest', three parse src rd = Ret (x, y, z, rd') /\ reads src rd' rest' mods /\ split_ws rest' = ts.
  Proof.
    intros R S0 U P1 P2 P3. inversion U as [|? ? U1 U']; subst. inversion U' as [|? ? U2 U'']; subst. inversion U'' as [|? ? U3 _]; subst.
    destruct (number_ok _ _ _ _ _ _ _ R S0 U1 P1) as (rd1 & r1 & E1 & R1 & S1).
    destruct (number_ok _ _ _ _ _ _ _ R1 S1 U2 P2) as (rd2 & r2 & E2 & R2 & S2).
    destruct (number_ok _ _ _ _ _ _ _ R2 S2 U3 P3) as (rd3 & r3 & E3 & R3 & S3).
    unfold three. rewrite E1. cbn [obind]. rewrite E2. cbn [obind]. rewrite E3. cbn [obind]. eauto.
  Qed.
  Lemma three_ns src rd rest mods : reads src rd rest mods -> three parse src rd <> Stuck.
  Proof.
    intros R. unfold three. pose proof (number_ns _ _ _ _ R). destruct (number parse src rd) as [[x1 rd1]| |] eqn:Q1; cbn [obind]; try discriminate; [|contradiction].
    destruct (number_inv _ _ _ _ _ _ R Q1) as (a & r1 & _ & _ & _ & R1 & _).
    pose proof (number_ns _ _ _ _ R1). destruct (number parse src rd1) as [[x2 rd2]| |] eqn:Q2; cbn [obind]; try discriminate; [|contradiction].
    destruct (number_inv _ _ _ _ _ _ R1 Q2) as (b & r2 & _ & _ & _ & R2 & _).
    pose proof (number_ns _ _ _ _ R2). destruct (number parse src rd2) as [[x3 rd3]| |] eqn:Q3; cbn [obind]; try discriminate. contradiction.
  Qed.
  Lemma header_inv src rd n rd' rest mods : n <> [] -> reads src rd rest mods -> expect_header src rd n = Ret rd' ->
    exists rest', split_ws rest = [lit "0"; lit "0"; n] ++ split_ws rest' /\ utf8 n = true /\ reads src rd' rest' mods /\ length rest' < length rest.
  Proof.
    intros NE R H. unfold expect_header in H. destruct (expect src rd (lit "0")) as [rd1| |] eqn:Q1; cbn [obind] in H; try discriminate.
    destruct (expect_inv _ _ _ _ _ _ zero_ne R Q1) as (r1 & S1 & _ & R1 & L1).
    destruct (expect src rd1 (lit "0")) as [rd2| |] eqn:Q2; cbn [obind] in H; try discriminate.
    destruct (expect_inv _ _ _ _ _ _ zero_ne R1 Q2) as (r2 & S2 & _ & R2 & L2).
    destruct (expect_inv _ _ _ _ _ _ NE R2 H) as (r3 & S3 & U3 & R3 & L3).
    exists r3. rewrite S1, S2, S3. split; [reflexivity|]. split; [exact U3|]. split; [exact R3|lia].
  Qed.
  Lemma header_ok src rd n rest mods ts : reads src rd rest mods -> split_ws rest = lit "0" :: lit "0" :: n :: ts -> utf8 n = true ->
    exists rd' rest', expect_header src rd n = Ret rd' /\ reads src rd' rest' mods /\ split_ws rest' = ts.
  Proof.
    intros R S0 U. destruct (expect_ok _ _ _ _ _ _ R S0 eq_refl) as (rd1 & r1 & E1 & R1 & S1).
    destruct (expect_ok _ _ _ _ _ _ R1 S1 eq_refl) as (rd2 & r2 & E2 & R2 & S2).
    destruct (expect_ok _ _ _ _ _ _ R2 S2 U) as (rd3 & r3 & E3 & R3 & S3).
    unfold expect_header. rewrite E1. cbn [obind]. rewrite E2. cbn [obind]. rewrite E3. eauto.
  Qed.
  Lemma header_ns src rd n rest mods : reads src rd rest mods -> expect_header src rd n <> Stuck.
  Proof.
    intros R. unfold expect_header. pose proof (expect_ns _ _ (lit "0") _ _ R). destruct (expect src rd (lit "0")) as [rd1| |] eqn:Q1; cbn [obind]; try discriminate; [|contradiction].
    destruct (expect_inv _ _ _ _ _ _ zero_ne R Q1) as (r1 & _ & _ & R1 & _).
    pose proof (expect_ns _ _ (lit "0") _ _ R1). destruct (expect src rd1 (lit "0")) as [rd2| |] eqn:Q2; cbn [obind]; try discriminate; [|contradiction].
    destruct (expect_inv _ _ _ _ _ _ zero_ne R1 Q2) as (r2 & _ & _ & R2 & _). eapply expect_ns. exact R2.
  Qed.

  (** ** polygons *)
  Lemma points_inv src : forall fuel n rd ps rd' rest mods, reads src rd rest mods -> n mod 3 = 0 -> polygon_points parse fuel n src rd = Ret (ps, rd') ->
    n = 3 * length ps /\ exists ws rest', split_ws rest = ws ++ split_ws rest' /\ Forall is_utf8 ws /\ numbers parse ws (coordinates ps) /\ reads src rd' rest' mods /\ length rest' <= length rest.
  Proof.
    induction fuel as [|fuel IH]; intros n rd ps rd' rest mods R M H; destruct n as [|n]; cbn [polygon_points] in H; try discriminate.
    - injection H as <- <-. split; [reflexivity|]. exists [], rest. split; [reflexivity|]. split; [constructor|]. split; [apply Forall2_nil|]. split; [exact R|lia].
    - injection H as <- <-. split; [reflexivity|]. exists [], rest. split; [reflexivity|]. split; [constructor|]. split; [apply Forall2_nil|]. split; [exact R|lia].
    - destruct (three parse src rd) as [[[[x y] z] rd1]| |] eqn:Q1; cbn [obind] in H; try discriminate.
      destruct (three_inv _ _ _ _ _ _ _ _ R Q1) as (a & b & c & r1 & S1 & Ua & Ub & Uc & Pa & Pb & Pc & R1 & L1).
      destruct (polygon_points parse fuel (S n - 3) src rd1) as [[qs rd2]| |] eqn:Q2; cbn [obind] in H; try discriminate. injection H as <- <-.
      assert (M3 : exists k, S n = 3 * S k).
      { apply Nat.mod_divides in M as [k Hk]; [|lia]. exists (k - 1). lia. }
      destruct M3 as [k Hk]. assert (M' : (S n - 3) mod 3 = 0) by (rewrite Hk; replace (3 * S k - 3) with (k * 3) by lia; apply Nat.mod_mul; lia).
      destruct (IH _ _ _ _ _ _ R1 M' Q2) as (Ln & ws & r2 & S2 & U2 & N2 & R2 & L2). split; [cbn [length]; lia|].
      exists ([a; b; c] ++ ws), r2. rewrite S1, S2. split; [reflexivity|]. split; [repeat (constructor; [assumption|]); assumption|].
      split; [cbn [coordinates vx vy vz]; repeat (constructor; [assumption|]); assumption|]. split; [exact R2|lia].
  Qed.
  Lemma points_ok src : forall ps fuel rd rest mods ws ts, reads src rd rest mods -> 3 * length ps <= fuel -> split_ws rest = ws ++ ts -> Forall is_utf8 ws ->
    numbers parse ws (coordinates ps) -> exists rd' rest', polygon_points parse fuel (3 * length ps) src rd = Ret (ps, rd') /\ reads src rd' rest' mods /\ split_ws rest' = ts.
  Proof.
    induction ps as [|p ps IH]; intros fuel rd rest mods ws ts R L S0 U NN.
    - inversion NN; subst. exists rd, rest. destruct fuel; auto.
    - cbn [coordinates] in NN. inversion NN as [|a ? ws1 ? P1 N1]; subst. inversion N1 as [|b ? ws2 ? P2 N2]; subst. inversion N2 as [|c ? ws3 ? P3 N3]; subst.
      destruct fuel as [|fuel]; [cbn in L; lia|].
      assert (U1 : Forall is_utf8 [a; b; c] /\ Forall is_utf8 ws3).
      { inversion U as [|? ? V1 V']; subst. inversion V' as [|? ? V2 V'']; subst. inversion V'' as [|? ? V3 V3']; subst. split; [repeat constructor; assumption|assumption]. }
      destruct U1 as [U1 U3]. destruct (three_ok _ _ _ _ _ _ _ _ _ _ _ R S0 U1 P1 P2 P3) as (rd1 & r1 & E1 & R1 & S1).
      replace (3 * length (p :: ps)) with (S (S (S (3 * length ps)))) by (cbn [length]; lia). cbn [polygon_points]. rewrite E1. cbn [obind].
      destruct (IH fuel rd1 r1 mods ws3 ts R1) as (rd2 & r2 & E2 & R2 & S2); auto; [cbn [length] in L; lia|].
      cbn [Nat.sub]. rewrite Nat.sub_0_r. rewrite E2. cbn [obind]. exists rd2, r2. destruct p. auto.
  Qed.
  Lemma points_ns src : forall fuel n rd rest mods, reads src rd rest mods -> n <= fuel -> polygon_points parse fuel n src rd <> Stuck.
  Proof.
    induction fuel as [|fuel IH]; intros n rd rest mods R L; destruct n as [|n]; cbn [polygon_points]; try discriminate; [lia|].
    pose proof (three_ns _ _ _ _ R). destruct (three parse src rd) as [[[[x y] z] rd1]| |] eqn:Q1; cbn [obind]; try discriminate; [|contradiction].
    destruct (three_inv _ _ _ _ _ _ _ _ R Q1) as (a & b & c & r1 & _ & _ & _ & _ & _ & _ & _ & R1 & _).
    pose proof (IH (S n - 3) rd1 r1 mods R1 ltac:(lia)). destruct (polygon_points parse fuel (S n - 3) src rd1) as [[qs rd2]| |]; cbn [obind]; try discriminate. contradiction.
  Qed.
  Lemma push_triangles_play ts i : forall s, push_triangles s i ts = play s (map (AddObject i i) (map PTriangle ts)).
  Proof. induction ts as [|t ts IH]; intros s; [reflexivity|]. cbn [push_triangles map play step]. destruct (push_object s i i (PTriangle t)); cbn [obind]; [apply IH|reflexivity|reflexivity]. Qed.
  Lemma play_app s a b : play s (a ++ b) = run s1 <- play s a ;; play s1 b.
  Proof. revert s. induction a as [|o a IH]; intros s; [reflexivity|]. cbn [app play]. destruct (step s o); cbn [obind]; [apply IH|reflexivity|reflexivity]. Qed.

  (** ** objects *)
  (** what one item does *)
  Definition item_ops (mods : list bytes) (it : item) (mods' : list bytes) (ops : list op) : Prop :=
    match it with
    | Define name m => mods' = mods ++ [name] /\ ops = [AddMaterial m]
    | Place modi ps => mods' = mods /\ exists i, first_definition mods modi i /\ ops = map (AddObject i i) ps
    end.
  Definition object := consume_object parse new_source triangulate.
  Lemma reads_add src rd rest mods name : reads src rd rest mods -> reads src (add_modifier rd name) rest (mods ++ [name]).
  Proof. intros (I & S0 & M & D1 & D2 & L). unfold reads, add_modifier. cbn. rewrite M. auto 10. Qed.

  Ltac adv H :=
    match type of H with
    | obind (expect_header ?src ?rd ?n) _ = _ =>
        match goal with R : reads src rd _ _ |- _ =>
        let Q := fresh "Q" in let rd1 := fresh "rd" in
        destruct (expect_header src rd n) as [rd1| |] eqn:Q; cbn [obind] in H; try discriminate H;
        let NEn := fresh in assert (NEn : n <> []) by discriminate;
        let r := fresh "r" in let S1 := fresh "SS" in let U := fresh "U" in let R1 := fresh "R" in let L := fresh "L" in
        destruct (header_inv _ _ _ _ _ _ NEn R Q) as (r & S1 & U & R1 & L); clear Q R NEn end
    | obind (expect ?src ?rd ?n) _ = _ =>
        match goal with R : reads src rd _ _ |- _ =>
        let Q := fresh "Q" in let rd1 := fresh "rd" in
        destruct (expect src rd n) as [rd1| |] eqn:Q; cbn [obind] in H; try discriminate H;
        let NEn := fresh in assert (NEn : n <> []) by discriminate;
        let r := fresh "r" in let S1 := fresh "SS" in let U := fresh "U" in let R1 := fresh "R" in let L := fresh "L" in
        destruct (expect_inv _ _ _ _ _ _ NEn R Q) as (r & S1 & U & R1 & L); clear Q R NEn end
    | obind (three parse ?src ?rd) _ = _ =>
        match goal with R : reads src rd _ _ |- _ =>
        let Q := fresh "Q" in let rd1 := fresh "rd" in let x := fresh "x" in let y := fresh "y" in let z := fresh "z" in
        destruct (three parse src rd) as [[[[x y] z] rd1]| |] eqn:Q; cbn [obind] in H; try discriminate H;
        let r := fresh "r" in let S1 := fresh "SS" in let R1 := fresh "R" in let L := fresh "L" in
        destruct (three_inv _ _ _ _ _ _ _ _ R Q) as (? & ? & ? & r & S1 & ? & ? & ? & ? & ? & ? & R1 & L); clear Q R end
    | obind (number parse ?src ?rd) _ = _ =>
        match goal with R : reads src rd _ _ |- _ =>
        let Q := fresh "Q" in let rd1 := fresh "rd" in let x := fresh "x" in
        destruct (number parse src rd) as [[x rd1]| |] eqn:Q; cbn [obind] in H; try discriminate H;
        let r := fresh "r" in let S1 := fresh "SS" in let R1 := fresh "R" in let L := fresh "L" in
        destruct (number_inv _ _ _ _ _ _ R Q) as (? & r & S1 & ? & ? & R1 & L); clear Q R end
    end.
  Ltac words := repeat match goal with SS : split_ws ?r = _ |- context [split_ws ?r] => rewrite SS end; cbn [app]; reflexivity.
  Ltac nums := repeat (constructor; [assumption|]); constructor.
  Ltac values := unfold numbers; repeat (apply Forall2_cons; [eassumption|]); apply Forall2_nil.
  Lemma two_zeros_inv src rd rest mods rd2 : reads src rd rest mods -> (run rd <- expect src rd (lit "0") ;; expect src rd (lit "0")) = Ret rd2 ->
    exists rest', split_ws rest = [lit "0"; lit "0"] ++ split_ws rest' /\ reads src rd2 rest' mods /\ length rest' < length rest.
  Proof.
    intros R H. destruct (expect src rd (lit "0")) as [rd1| |] eqn:Q1; cbn [obind] in H; try discriminate.
    destruct (expect_inv _ _ _ _ _ _ zero_ne R Q1) as (r1 & S1 & _ & R1 & L1).
    destruct (expect_inv _ _ _ _ _ _ zero_ne R1 H) as (r2 & S2 & _ & R2 & L2).
    exists r2. rewrite S1, S2. split; [reflexivity|]. split; [exact R2|lia].
  Qed.

  Lemma object_inv src rd rest mods s rd' s' : reads src rd rest mods -> object src rd s = Ret (rd', s') ->
    (Forall blank rest /\ s' = s /\ reads src rd' [] mods /\ rd_done rd' = true) \/
    exists ws rest' it mods' ops, split_ws rest = ws ++ split_ws rest' /\ Forall is_utf8 ws /\ describes parse new_source triangulate ws it /\
      item_ops mods it mods' ops /\ play s ops = Ret s' /\ reads src rd' rest' mods' /\ length rest' < length rest.
  Proof.
    intros R H. unfold object, consume_object in H.
    destruct (reach_token _ _ _ _ R) as [[B (rd0 & E0 & R0 & D0)]|(gap & w & rest0 & -> & B & NE & W & D & rd0 & E0 & R0 & D0)]; rewrite E0 in H; cbn [obind] in H; rewrite D0 in H.
    { injection H as <- <-. left. auto. }
    right.
    assert (SW : split_ws (gap ++ w ++ rest0) = split_ws (w ++ rest0)) by (apply split_ws_blanks; exact B).
    assert (LW : length (w ++ rest0) <= length (gap ++ w ++ rest0)) by (rewrite (app_length gap); lia).
    rewrite SW. set (rest := w ++ rest0) in *. set (full := length (gap ++ rest)) in *. clearbody full. clear SW R.
    destruct (consume_token src rd0) as [[modi rd1]| |] eqn:Q1; cbn [obind] in H; try discriminate.
    destruct (rd_done rd1) eqn:D1; [discriminate|].
    destruct (token_inv _ _ _ _ _ _ R0 Q1) as [(_ & _ & _ & X)|(_ & U1 & r1 & S1 & R1 & L1 & _)]; [congruence|].
    destruct (consume_token src rd1) as [[ty rd2]| |] eqn:Q2; cbn [obind] in H; try discriminate.
    destruct (rd_done rd2) eqn:D2; [discriminate|].
    destruct (token_inv _ _ _ _ _ _ R1 Q2) as [(_ & _ & _ & X)|(_ & U2 & r2 & S2 & R2 & L2 & _)]; [congruence|].
    destruct (consume_token src rd2) as [[name rd3]| |] eqn:Q3; cbn [obind] in H; try discriminate.
    destruct (rd_done rd3) eqn:D3; [discriminate|].
    destruct (token_inv _ _ _ _ _ _ R2 Q3) as [(_ & _ & _ & X)|(_ & U3 & r3 & S3 & R3 & L3 & _)]; [congruence|].
    assert (S0 : split_ws rest = [modi; ty; name] ++ split_ws r3) by (rewrite S1, S2, S3; reflexivity).
    assert (L0 : length r3 < full) by lia. clear Q1 Q2 Q3 S1 S2 S3 L1 L2 L3 R0 R1 R2 D1 D2 D3.
    repeat match type of H with (if bytes_eqb ty ?x then _ else _) = _ =>
      let B := fresh "B" in destruct (bytes_eqb ty x) eqn:B; [apply bytes_eqb_eq in B; subst ty|clear B] end; try discriminate H.
    - unfold consume_plastic in H. adv H. adv H. adv H. adv H. injection H as <- <-.
      do 2 eexists. eexists (Define name _). exists (mods ++ [name]). eexists. split; [|split; [|split; [|split; [split; reflexivity|split; [reflexivity|split; [apply reads_add; eassumption|lia]]]]]]. all: cycle 2. eapply d_plastic; values. words. nums.
    - unfold consume_metal in H. adv H. adv H. adv H. adv H. injection H as <- <-.
      do 2 eexists. eexists (Define name _). exists (mods ++ [name]). eexists. split; [|split; [|split; [|split; [split; reflexivity|split; [reflexivity|split; [apply reads_add; eassumption|lia]]]]]]. all: cycle 2. eapply d_metal; values. words. nums.
    - unfold consume_light in H. adv H. adv H. injection H as <- <-.
      do 2 eexists. eexists (Define name _). exists (mods ++ [name]). eexists. split; [|split; [|split; [|split; [split; reflexivity|split; [reflexivity|split; [apply reads_add; eassumption|lia]]]]]]. all: cycle 2. eapply d_light; values. words. nums.
    - unfold consume_mirror in H. adv H. adv H. injection H as <- <-.
      do 2 eexists. eexists (Define name _). exists (mods ++ [name]). eexists. split; [|split; [|split; [|split; [split; reflexivity|split; [reflexivity|split; [apply reads_add; eassumption|lia]]]]]]. all: cycle 2. eapply d_mirror; values. words. nums.
    - unfold consume_dielectric in H. adv H. adv H. adv H. adv H. injection H as <- <-.
      do 2 eexists. eexists (Define name _). exists (mods ++ [name]). eexists. split; [|split; [|split; [|split; [split; reflexivity|split; [reflexivity|split; [apply reads_add; eassumption|lia]]]]]]. all: cycle 2. eapply d_dielectric; values. words. nums.
    - unfold consume_glass in H. adv H. adv H.
      match type of H with obind (consume_token src ?rdx) _ = _ => destruct (consume_token src rdx) as [[t rd6]| |] eqn:Q6; cbn [obind] in H; try discriminate H;
        match goal with R : reads src rdx _ _ |- _ => destruct (token_inv _ _ _ _ _ _ R Q6) as [(-> & _)|(_ & U6 & r6 & S6 & R6 & L6 & _)]; [discriminate H|clear Q6 R] end end.
      destruct (bytes_eqb t (lit "4")) eqn:B4.
      { apply bytes_eqb_eq in B4. subst t.
        match type of H with obind ?e _ = _ => destruct e as [[mat rd7]| |] eqn:Q7; cbn [obind] in H; try discriminate H end.
        adv Q7. adv Q7. injection Q7 as <- <-. injection H as <- <-.
        do 2 eexists. eexists (Define name _). exists (mods ++ [name]). eexists. split; [|split; [|split; [|split; [split; reflexivity|split; [reflexivity|split; [apply reads_add; eassumption|lia]]]]]]. all: cycle 2. eapply d_glass_n; values. words. nums. }
      destruct (bytes_eqb t (lit "3")) eqn:B3; [|discriminate H].
      apply bytes_eqb_eq in B3. subst t.
      match type of H with obind ?e _ = _ => destruct e as [[mat rd7]| |] eqn:Q7; cbn [obind] in H; try discriminate H end.
      adv Q7. injection Q7 as <- <-. injection H as <- <-.
      do 2 eexists. eexists (Define name _). exists (mods ++ [name]). eexists. split; [|split; [|split; [|split; [split; reflexivity|split; [reflexivity|split; [apply reads_add; eassumption|lia]]]]]]. all: cycle 2. eapply d_glass; values. words. nums.
    - unfold consume_sphere in H. adv H. adv H. adv H.
      match type of H with obind (get_modifier_index ?r _) _ = _ => destruct (get_modifier_index r modi) as [i| |] eqn:G; cbn [obind] in H; try discriminate H;
        apply get_modifier_spec in G; match goal with R : reads src r _ _ |- _ => pose proof R as (_ & _ & MM & _) end; rewrite MM in G end.
      match type of H with obind ?e _ = _ => destruct e as [s1| |] eqn:PO; cbn [obind] in H; try discriminate H end. injection H as <- <-.
      do 2 eexists. eexists (Place modi [_]). exists mods. eexists. split; [|split; [|split; [|split; [split; [reflexivity|exists i; split; [exact G|reflexivity]]|split; [cbn [map play step]; rewrite PO; reflexivity|split; [eassumption|lia]]]]]]. all: cycle 2. eapply d_sphere; values. words. nums.
    - unfold consume_source in H. adv H. adv H. adv H. cbv zeta in H.
      match type of H with obind (get_modifier_index ?r _) _ = _ => destruct (get_modifier_index r modi) as [i| |] eqn:G; cbn [obind] in H; try discriminate H;
        apply get_modifier_spec in G; match goal with R : reads src r _ _ |- _ => pose proof R as (_ & _ & MM & _) end; rewrite MM in G end.
      match type of H with obind ?e _ = _ => destruct e as [s1| |] eqn:PO; cbn [obind] in H; try discriminate H end. injection H as <- <-.
      do 2 eexists. eexists (Place modi [_]). exists mods. eexists. split; [|split; [|split; [|split; [split; [reflexivity|exists i; split; [exact G|reflexivity]]|split; [cbn [map play step]; unfold to_radians in PO; rewrite PO; reflexivity|split; [eassumption|lia]]]]]]. all: cycle 2. eapply d_source; values. words. nums.
    - unfold consume_polygon in H. adv H. adv H.
      match type of H with obind (consume_token src ?rdx) _ = _ => destruct (consume_token src rdx) as [[t rd6]| |] eqn:Q6; cbn [obind] in H; try discriminate H;
        match goal with R : reads src rdx _ _ |- _ => destruct (token_inv _ _ _ _ _ _ R Q6) as [(-> & _)|(_ & U6 & r6 & S6 & R6 & L6 & _)]; [discriminate H|clear Q6 R] end end.
      destruct (parse_usize t) as [n|] eqn:PU; cbn [ret_opt obind] in H; [|discriminate H].
      destruct (Nat.eqb_spec (n mod 3) 0) as [M3|]; cbn [negb] in H; [|discriminate H].
      destruct (polygon_points parse n n src rd6) as [[ps rd7]| |] eqn:Q7; cbn [obind] in H; try discriminate H.
      destruct (points_inv _ _ _ _ _ _ _ _ R6 M3 Q7) as (Ln & ws & r7 & S7 & U7 & N7 & R7 & L7).
      destruct (get_modifier_index rd7 modi) as [i| |] eqn:G; cbn [obind] in H; try discriminate H.
      apply get_modifier_spec in G. pose proof R7 as (_ & _ & MM & _). rewrite MM in G.
      destruct (triangulate ps) as [ts|] eqn:TR; cbn [ret_opt obind] in H; [|discriminate H].
      destruct (push_triangles s i ts) as [s1| |] eqn:PO; cbn [obind] in H; try discriminate H. injection H as <- <-. rewrite push_triangles_play in PO.
      exists ([modi; lit "polygon"; name; lit "0"; lit "0"; t] ++ ws), r7, (Place modi (map PTriangle ts)), mods, (map (AddObject i i) (map PTriangle ts)).
      split; [|split; [|split; [apply (d_polygon parse new_source triangulate modi name t ws ps ts); [congruence|assumption|assumption]|split; [split; [reflexivity|exists i; split; [exact G|reflexivity]]|split; [exact PO|split; [eassumption|lia]]]]]].
      + words.
      + cbn [app]. repeat (constructor; [assumption|]). exact U7.
  Qed.

  (** ** the words of an item are accepted *)
  Lemma not_done src rd rest mods t ts : reads src rd rest mods -> split_ws rest = t :: ts -> rd_done rd = false.
  Proof. intros (_ & _ & _ & D & _) S0. destruct (rd_done rd); [|reflexivity]. rewrite (D eq_refl) in S0. discriminate S0. Qed.
  Lemma token_ok src rd rest mods t ts : reads src rd rest mods -> split_ws rest = t :: ts -> utf8 t = true ->
    exists rd' rest', consume_token src rd = Ret (t, rd') /\ reads src rd' rest' mods /\ split_ws rest' = ts.
  Proof. intros R S0 U. destruct (token_next _ _ _ _ _ _ R S0) as (rd' & rest' & R' & S' & _ & _ & _ & E1). rewrite U in E1. eauto. Qed.
  Lemma reach_same src rd rest mods t ts : reads src rd rest mods -> split_ws rest = t :: ts ->
    exists rd' rest', reach_next_token src rd = Ret rd' /\ reads src rd' rest' mods /\ split_ws rest' = t :: ts /\ rd_done rd' = false.
  Proof.
    intros R S0. destruct (reach_token _ _ _ _ R) as [[B _]|(gap & w & rest0 & -> & B & NE & W & D & rd0 & E0 & R0 & D0)].
    - assert (X : split_ws rest = []) by (rewrite <- (app_nil_r rest), split_ws_blanks by exact B; reflexivity). congruence.
    - exists rd0, (w ++ rest0). rewrite split_ws_blanks in S0 by exact B. auto.
  Qed.
  Lemma object_start src rd rest mods s modi ty name a ts : reads src rd rest mods -> split_ws rest = modi :: ty :: name :: a :: ts ->
    Forall is_utf8 [modi; ty; name] ->
    exists rd' rest', reads src rd' rest' mods /\ split_ws rest' = a :: ts /\
      object src rd s =
        (if bytes_eqb ty (lit "plastic") then consume_plastic parse src rd' s name
         else if bytes_eqb ty (lit "metal") then consume_metal parse src rd' s name
         else if bytes_eqb ty (lit "light") then consume_light parse src rd' s name
         else if bytes_eqb ty (lit "mirror") then consume_mirror parse src rd' s name
         else if bytes_eqb ty (lit "dielectric") then consume_dielectric parse src rd' s name
         else if bytes_eqb ty (lit "glass") then consume_glass parse src rd' s name
         else if bytes_eqb ty (lit "sphere") then consume_sphere parse src rd' s modi
         else if bytes_eqb ty (lit "source") then consume_source parse new_source src rd' s modi
         else if bytes_eqb ty (lit "polygon") then consume_polygon parse triangulate src rd' s modi
         else Crash).
  Proof.
    intros R S0 U. inversion U as [|? ? U1 U']; subst. inversion U' as [|? ? U2 U'']; subst. inversion U'' as [|? ? U3 _]; subst.
    destruct (reach_same _ _ _ _ _ _ R S0) as (rd0 & r0 & E0 & R0 & S0' & D0).
    destruct (token_ok _ _ _ _ _ _ R0 S0' U1) as (rd1 & r1 & E1 & R1 & S1).
    destruct (token_ok _ _ _ _ _ _ R1 S1 U2) as (rd2 & r2 & E2 & R2 & S2).
    destruct (token_ok _ _ _ _ _ _ R2 S2 U3) as (rd3 & r3 & E3 & R3 & S3).
    exists rd3, r3. split; [exact R3|]. split; [exact S3|]. unfold object, consume_object. rewrite E0. cbn [obind]. rewrite D0, E1. cbn [obind].
    rewrite (not_done _ _ _ _ _ _ R1 S1), E2. cbn [obind]. rewrite (not_done _ _ _ _ _ _ R2 S2), E3. cbn [obind]. rewrite (not_done _ _ _ _ _ _ R3 S3). reflexivity.
  Qed.

  (* moves one step of the program on: the words are known and can be read *)
  Ltac go :=
    match goal with
    | R : reads ?src ?rd ?rest _, S0 : split_ws ?rest = _ |- context [obind (expect_header ?src ?rd ?n) _] =>
        let E1 := fresh in let R1 := fresh "R" in let S1 := fresh "SS" in
        destruct (header_ok _ _ n _ _ _ R S0 ltac:(assumption || reflexivity)) as (? & ? & E1 & R1 & S1); rewrite E1; cbn [obind]; clear E1 R S0
    | R : reads ?src ?rd ?rest _, S0 : split_ws ?rest = _ |- context [obind (expect ?src ?rd ?n) _] =>
        let E1 := fresh in let R1 := fresh "R" in let S1 := fresh "SS" in
        destruct (expect_ok _ _ n _ _ _ R S0 ltac:(assumption || reflexivity)) as (? & ? & E1 & R1 & S1); rewrite E1; cbn [obind]; clear E1 R S0
    | R : reads ?src ?rd ?rest _, S0 : split_ws ?rest = ?a :: ?b :: ?c :: _, P1 : parse ?a = Some _, P2 : parse ?b = Some _, P3 : parse ?c = Some _ |- context [obind (three parse ?src ?rd) _] =>
        let E1 := fresh in let R1 := fresh "R" in let S1 := fresh "SS" in
        destruct (three_ok _ _ _ _ _ _ _ _ _ _ _ R S0 ltac:(repeat (constructor; [assumption|]); constructor) P1 P2 P3) as (? & ? & E1 & R1 & S1); rewrite E1; cbn [obind]; clear E1 R S0
    | R : reads ?src ?rd ?rest _, S0 : split_ws ?rest = ?a :: _, P1 : parse ?a = Some _ |- context [obind (number parse ?src ?rd) _] =>
        let E1 := fresh in let R1 := fresh "R" in let S1 := fresh "SS" in
        destruct (number_ok _ _ _ _ _ _ _ R S0 ltac:(assumption) P1) as (? & ? & E1 & R1 & S1); rewrite E1; cbn [obind]; clear E1 R S0
    end.
  Ltac pieces :=
    repeat match goal with
    | H : numbers parse _ (_ :: _) |- _ => inversion H; clear H; subst
    | H : numbers parse _ [] |- _ => inversion H; clear H; subst
    | H : Forall2 _ _ (_ :: _) |- _ => inversion H; clear H; subst
    | H : Forall2 _ _ [] |- _ => inversion H; clear H; subst
    end.
  Ltac utfs := repeat match goal with H : Forall is_utf8 (_ :: _) |- _ => inversion H; clear H; subst end.
  Ltac choose :=
    repeat match goal with |- context [if bytes_eqb ?a ?b then _ else _] =>
      let v := eval vm_compute in (bytes_eqb a b) in change (bytes_eqb a b) with v; cbn iota end.
  Lemma object_ok src rd rest mods s ws ts it mods' ops s' : reads src rd rest mods -> split_ws rest = ws ++ ts -> Forall is_utf8 ws ->
    describes parse new_source triangulate ws it -> item_ops mods it mods' ops -> play s ops = Ret s' ->
    exists rd' rest', object src rd s = Ret (rd', s') /\ reads src rd' rest' mods' /\ split_ws rest' = ts.
  Proof.
    intros R S0 U D IO PL. destruct D; cbn [item_ops] in IO; cbn [app] in S0, U; utfs;
      (destruct (object_start _ _ _ _ s _ _ _ _ _ R S0) as (rd0 & r0 & R0 & SS0 & E0); [repeat (constructor; [assumption|]); constructor|]);
      rewrite E0; clear E0 R S0; choose.
    - destruct IO as [-> ->]. injection PL as <-. pieces. utfs. cbn [app] in *. unfold consume_plastic. repeat go. do 2 eexists. split; [reflexivity|]. split; [apply reads_add; eassumption|assumption].
    - destruct IO as [-> ->]. injection PL as <-. pieces. utfs. cbn [app] in *. unfold consume_metal. repeat go. do 2 eexists. split; [reflexivity|]. split; [apply reads_add; eassumption|assumption].
    - destruct IO as [-> ->]. injection PL as <-. pieces. utfs. cbn [app] in *. unfold consume_light. repeat go. do 2 eexists. split; [reflexivity|]. split; [apply reads_add; eassumption|assumption].
    - destruct IO as [-> ->]. injection PL as <-. pieces. utfs. cbn [app] in *. unfold consume_mirror. repeat go. do 2 eexists. split; [reflexivity|]. split; [apply reads_add; eassumption|assumption].
    - destruct IO as [-> ->]. injection PL as <-. pieces. utfs. cbn [app] in *. unfold consume_dielectric. repeat go. do 2 eexists. split; [reflexivity|]. split; [apply reads_add; eassumption|assumption].
    - destruct IO as [-> ->]. injection PL as <-. pieces. utfs. cbn [app] in *. unfold consume_glass. repeat go.
      match goal with R : reads ?src ?rd ?rest _, S0 : split_ws ?rest = _ |- context [consume_token ?src ?rd] =>
        destruct (token_ok _ _ _ _ _ _ R S0 eq_refl) as (? & ? & E1 & R1 & S1); rewrite E1; cbn [obind]; clear E1 R S0 end.
      choose. repeat go. do 2 eexists. split; [reflexivity|]. split; [apply reads_add; eassumption|assumption].
    - destruct IO as [-> ->]. injection PL as <-. pieces. utfs. cbn [app] in *. unfold consume_glass. repeat go.
      match goal with R : reads ?src ?rd ?rest _, S0 : split_ws ?rest = _ |- context [consume_token ?src ?rd] =>
        destruct (token_ok _ _ _ _ _ _ R S0 eq_refl) as (? & ? & E1 & R1 & S1); rewrite E1; cbn [obind]; clear E1 R S0 end.
      choose. repeat go. do 2 eexists. split; [reflexivity|]. split; [apply reads_add; eassumption|assumption].
    - destruct IO as [-> (i & FD & ->)]. pieces. utfs. cbn [app] in *. unfold consume_sphere. repeat go.
      match goal with R : reads _ ?rd _ _ |- context [get_modifier_index ?rd _] => assert (G : get_modifier_index rd modi = Ret i) by (apply get_modifier_spec; destruct R as (_ & _ & -> & _); exact FD) end.
      rewrite G. cbn [obind]. cbn [map play step] in PL. destruct (push_object s i i _) as [s1| |]; cbn [obind] in PL |- *; try discriminate PL. injection PL as <-. eauto.
    - destruct IO as [-> (i & FD & ->)]. pieces. utfs. cbn [app] in *. unfold consume_source. repeat go. cbv zeta.
      match goal with R : reads _ ?rd _ _ |- context [get_modifier_index ?rd _] => assert (G : get_modifier_index rd modi = Ret i) by (apply get_modifier_spec; destruct R as (_ & _ & -> & _); exact FD) end.
      rewrite G. cbn [obind]. cbn [map play step] in PL. unfold to_radians. destruct (push_object s i i _) as [s1| |]; cbn [obind] in PL |- *; try discriminate PL. injection PL as <-. eauto.
    - destruct IO as [-> (i & FD & ->)]. cbn [app] in *. unfold consume_polygon. repeat go.
      match goal with R : reads ?src ?rd ?rest _, S0 : split_ws ?rest = _ |- context [consume_token ?src ?rd] =>
        destruct (token_ok _ _ _ _ _ _ R S0 ltac:(assumption)) as (? & ? & E1 & R1 & S1); rewrite E1; cbn [obind]; clear E1 R S0 end.
      match goal with P : parse_usize n = _ |- _ => rewrite P; cbn [ret_opt obind] end.
      assert (M : (3 * length points) mod 3 = 0) by (rewrite Nat.mul_comm; apply Nat.mod_mul; lia). rewrite M, Nat.eqb_refl. cbn [negb].
      destruct (points_ok src points (3 * length points) _ _ _ _ _ R1 (le_n _) S1 ltac:(assumption) ltac:(assumption)) as (rd2 & r2 & E2 & R2 & S2).
      rewrite E2. cbn [obind].
      assert (G : get_modifier_index rd2 modi = Ret i) by (apply get_modifier_spec; destruct R2 as (_ & _ & -> & _); exact FD).
      rewrite G. cbn [obind]. match goal with Q : triangulate _ = Some _ |- _ => rewrite Q; cbn [ret_opt obind] end. rewrite push_triangles_play, PL. cbn [obind]. eauto.
  Qed.
  (** ** an item is always answered *)
  Lemma push_object_ns s i j p : push_object s i j p <> Stuck.
  Proof.
    unfold push_object. destruct (nth_error (sc_materials s) i); [|discriminate]. destruct (nth_error (sc_materials s) j); [|discriminate].
    destruct (register_light _ _ _ _ _ _) as [s1 l]. destruct p; cbn [mesh_primitive obind]; try (destruct l; discriminate); destruct (mesh_triangle _) || destruct (mesh_sphere _); discriminate.
  Qed.
  Ltac ns :=
    match goal with
    | R : reads ?src ?rd _ _ |- obind (expect_header ?src ?rd ?n) _ <> Stuck =>
        let Q := fresh "Q" in let NS := fresh in pose proof (header_ns _ _ n _ _ R) as NS;
        destruct (expect_header src rd n) eqn:Q; cbn [obind]; [|discriminate|contradiction];
        destruct (header_inv _ _ n _ _ _ ltac:(discriminate) R Q) as (? & _ & _ & ? & _); clear Q NS R
    | R : reads ?src ?rd _ _ |- obind (expect ?src ?rd ?n) _ <> Stuck =>
        let Q := fresh "Q" in let NS := fresh in pose proof (expect_ns _ _ n _ _ R) as NS;
        destruct (expect src rd n) eqn:Q; cbn [obind]; [|discriminate|contradiction];
        destruct (expect_inv _ _ n _ _ _ ltac:(discriminate) R Q) as (? & _ & _ & ? & _); clear Q NS R
    | R : reads ?src ?rd _ _ |- obind (three parse ?src ?rd) _ <> Stuck =>
        let Q := fresh "Q" in let NS := fresh in pose proof (three_ns _ _ _ _ R) as NS;
        destruct (three parse src rd) as [[[[? ?] ?] ?]| |] eqn:Q; cbn [obind]; [|discriminate|contradiction];
        destruct (three_inv _ _ _ _ _ _ _ _ R Q) as (? & ? & ? & ? & _ & _ & _ & _ & _ & _ & _ & ? & _); clear Q NS R
    | R : reads ?src ?rd _ _ |- obind (number parse ?src ?rd) _ <> Stuck =>
        let Q := fresh "Q" in let NS := fresh in pose proof (number_ns _ _ _ _ R) as NS;
        destruct (number parse src rd) as [[? ?]| |] eqn:Q; cbn [obind]; [|discriminate|contradiction];
        destruct (number_inv _ _ _ _ _ _ R Q) as (? & ? & _ & _ & _ & ? & _); clear Q NS R
    | |- obind (get_modifier_index ?rd ?n) _ <> Stuck =>
        let NS := fresh in pose proof (get_modifier_stuck rd n) as NS; destruct (get_modifier_index rd n); cbn [obind]; [|discriminate|contradiction]
    | |- obind (push_object ?s ?i ?j ?p) _ <> Stuck =>
        let NS := fresh in pose proof (push_object_ns s i j p) as NS; destruct (push_object s i j p); cbn [obind]; [|discriminate|contradiction]
    end.
  Lemma token_reads src rd rest mods t rd' : reads src rd rest mods -> consume_token src rd = Ret (t, rd') -> exists rest', reads src rd' rest' mods.
  Proof. intros R Q. destruct (token_inv _ _ _ _ _ _ R Q) as [(_ & _ & R1 & _)|(_ & _ & r & _ & R1 & _)]; eauto. Qed.
  Ltac tok :=
    match goal with R : reads ?src ?rd _ _ |- obind (consume_token ?src ?rd) _ <> Stuck =>
        let Q := fresh "Q" in let NS := fresh in pose proof (token_not_stuck _ _ _ _ R) as NS;
        destruct (consume_token src rd) as [[? ?]| |] eqn:Q; cbn [obind]; [|discriminate|contradiction];
        destruct (token_reads _ _ _ _ _ _ R Q) as [? ?]; clear Q NS R end.
  Lemma push_triangles_ns ts i : forall s, push_triangles s i ts <> Stuck.
  Proof. induction ts as [|t ts IH]; intros s; [discriminate|]. cbn [push_triangles]. ns. apply IH. Qed.
  Lemma object_ns src rd rest mods s : reads src rd rest mods -> object src rd s <> Stuck.
  Proof.
    intros R. unfold object, consume_object.
    assert (X : exists rd0 r0, reach_next_token src rd = Ret rd0 /\ reads src rd0 r0 mods).
    { destruct (reach_token _ _ _ _ R) as [[B (rd0 & E0 & R0 & D0)]|(gap & w & rest0 & _ & _ & _ & _ & _ & rd0 & E0 & R0 & D0)]; eauto. }
    destruct X as (rd0 & r0 & -> & R0). clear R. cbn [obind]. destruct (rd_done rd0); [discriminate|]. tok.
    match goal with |- context [rd_done ?r] => destruct (rd_done r); [discriminate|] end. tok.
    match goal with |- context [rd_done ?r] => destruct (rd_done r); [discriminate|] end. tok.
    match goal with |- context [rd_done ?r] => destruct (rd_done r); [discriminate|] end.
    repeat match goal with |- (if bytes_eqb ?a ?b then _ else _) <> Stuck => destruct (bytes_eqb a b) end; [..|discriminate].
    - unfold consume_plastic. repeat ns. discriminate.
    - unfold consume_metal. repeat ns. discriminate.
    - unfold consume_light. repeat ns. discriminate.
    - unfold consume_mirror. repeat ns. discriminate.
    - unfold consume_dielectric. repeat ns. discriminate.
    - unfold consume_glass. repeat ns. tok.
      match goal with |- obind ?e _ <> Stuck => assert (NS : e <> Stuck) end.
      { destruct (bytes_eqb _ _); [repeat ns; discriminate|]. destruct (bytes_eqb _ _); [repeat ns; discriminate|discriminate]. }
      match goal with |- obind ?e _ <> Stuck => destruct e as [[? ?]| |]; [discriminate|discriminate|contradiction] end.
    - unfold consume_sphere. repeat ns. discriminate.
    - unfold consume_source. repeat ns. cbv zeta. repeat ns. discriminate.
    - unfold consume_polygon. repeat ns. tok. destruct (parse_usize _) as [n|]; cbn [ret_opt obind]; [|discriminate].
      destruct (negb _); [discriminate|].
      match goal with R : reads _ ?rd _ _ |- _ => pose proof (points_ns _ n n rd _ _ R (le_n _)) as NS end.
      destruct (polygon_points parse n n src _) as [[ps rd7]| |]; cbn [obind]; [|discriminate|contradiction]. ns.
      destruct (triangulate ps) as [ts|]; cbn [ret_opt obind]; [|discriminate].
      match goal with |- obind (push_triangles ?s ?i ?ts) _ <> Stuck => pose proof (push_triangles_ns ts i s) as NS2; destruct (push_triangles s i ts); [discriminate|discriminate|contradiction] end.
  Qed.

  (** ** whole descriptions *)
  Lemma stands_for_cons mods it mods' ops items ops2 : item_ops mods it mods' ops -> stands_for first_definition mods' items ops2 -> stands_for first_definition mods (it :: items) (ops ++ ops2).
  Proof.
    destruct it; cbn [item_ops].
    - intros [-> ->] H. cbn [app]. constructor. exact H.
    - intros [-> (i & FD & ->)] H. econstructor; eassumption.
  Qed.
  Lemma stands_for_inv mods it items ops : stands_for first_definition mods (it :: items) ops ->
    exists mods' ops1 ops2, ops = ops1 ++ ops2 /\ item_ops mods it mods' ops1 /\ stands_for first_definition mods' items ops2.
  Proof.
    intros H. inversion H; subst.
    - do 2 eexists. eexists. split; [|split; [split; reflexivity|eassumption]]. reflexivity.
    - do 2 eexists. eexists. split; [reflexivity|]. split; [split; [reflexivity|exists i; split; [eassumption|reflexivity]]|assumption].
  Qed.
  Lemma describes_ne ws it : describes parse new_source triangulate ws it -> ws <> [].
  Proof. destruct 1; discriminate. Qed.
  Lemma blank_words rest : Forall blank rest -> split_ws rest = [].
  Proof. intros B. rewrite <- (app_nil_r rest), split_ws_blanks by exact B. reflexivity. Qed.

  Lemma read_inv src : forall fuel rd rest mods s s', reads src rd rest mods -> read_objects parse new_source triangulate fuel src rd s = Ret s' ->
    exists wss items ops, split_ws rest = concat wss /\ Forall is_utf8 (concat wss) /\ Forall2 (describes parse new_source triangulate) wss items /\
      stands_for first_definition mods items ops /\ play s ops = Ret s'.
  Proof.
    induction fuel as [|fuel IH]; intros rd rest mods s s' R H; cbn [read_objects] in H; destruct (rd_done rd) eqn:D; try discriminate H.
    1,2: injection H as <-; destruct R as (_ & _ & _ & X & _); rewrite (X D); exists [], [], []; (split; [reflexivity|]); (split; [constructor|]); (split; [constructor|]); split; [constructor|reflexivity].
    destruct (consume_object parse new_source triangulate src rd s) as [[rd1 s1]| |] eqn:Q; cbn [obind] in H; try discriminate H.
    destruct (object_inv _ _ _ _ _ _ _ R Q) as [(B & -> & R1 & D1)|(ws & r1 & it & mods1 & ops1 & S1 & U1 & DS & IO & PL & R1 & L1)].
    - destruct (IH _ _ _ _ _ R1 H) as (wss & items & ops & S2 & U2 & F2 & SF & PL2). exists wss, items, ops. rewrite blank_words by exact B. auto.
    - destruct (IH _ _ _ _ _ R1 H) as (wss & items & ops & S2 & U2 & F2 & SF & PL2).
      exists (ws :: wss), (it :: items), (ops1 ++ ops). cbn [concat]. split; [rewrite S1, S2; reflexivity|]. split; [apply Forall_app; auto|].
      split; [constructor; assumption|]. split; [eapply stands_for_cons; eassumption|]. rewrite play_app, PL. exact PL2.
  Qed.
  Lemma read_ok src : forall fuel rd rest mods s s' wss items ops, reads src rd rest mods -> length rest < fuel -> split_ws rest = concat wss -> Forall is_utf8 (concat wss) ->
    Forall2 (describes parse new_source triangulate) wss items -> stands_for first_definition mods items ops -> play s ops = Ret s' ->
    read_objects parse new_source triangulate fuel src rd s = Ret s'.
  Proof.
    induction fuel as [|fuel IH]; intros rd rest mods s s' wss items ops R LF S0 U F2 SF PL; [lia|]. cbn [read_objects]. destruct F2 as [|ws it wss items DS F2].
    - inversion SF; subst. injection PL as <-. destruct (rd_done rd) eqn:D; [reflexivity|].
      unfold consume_object. destruct (reach_token _ _ _ _ R) as [[B (rd0 & E0 & R0 & D0)]|(gap & w & rest0 & -> & B & NE & W & DD & _)].
      + rewrite E0. cbn [obind]. rewrite D0. cbn [obind]. destruct fuel; cbn [read_objects]; rewrite D0; reflexivity.
      + rewrite split_ws_blanks in S0 by exact B. rewrite split_ws_next in S0 by assumption. discriminate S0.
    - cbn [concat] in S0, U. apply Forall_app in U as [U1 U2]. destruct (stands_for_inv _ _ _ _ SF) as (mods1 & ops1 & ops2 & -> & IO & SF2).
      rewrite play_app in PL. destruct (play s ops1) as [s1| |] eqn:P1; cbn [obind] in PL; try discriminate PL.
      destruct (object_ok _ _ _ _ _ _ _ _ _ _ _ R S0 U1 DS IO P1) as (rd1 & r1 & E1 & R1 & S1).
      assert (D : rd_done rd = false).
      { destruct ws as [|w ws]; [apply describes_ne in DS; contradiction|]. cbn [app] in S0. eapply not_done; eassumption. }
      rewrite D. unfold object in E1. rewrite E1. cbn [obind]. eapply IH; try eassumption.
      destruct (object_inv _ _ _ _ _ _ _ R E1) as [(B & _)|(_ & r2 & _ & m2 & _ & _ & _ & _ & _ & _ & R2 & L2)].
      + rewrite blank_words in S0 by exact B. destruct ws; [apply describes_ne in DS; contradiction|discriminate S0].
      + assert (r1 = r2) as -> by (destruct R1 as (_ & X1 & _); destruct R2 as (_ & X2 & _); congruence). lia.
  Qed.
  Lemma read_ns src : forall fuel rd rest mods s, reads src rd rest mods -> length rest < fuel -> read_objects parse new_source triangulate fuel src rd s <> Stuck.
  Proof.
    induction fuel as [|fuel IH]; intros rd rest mods s R LF; [lia|]. cbn [read_objects]. destruct (rd_done rd); [discriminate|].
    pose proof (object_ns _ _ _ _ s R) as NS. unfold object in NS. destruct (consume_object parse new_source triangulate src rd s) as [[rd1 s1]| |] eqn:Q; cbn [obind]; [|discriminate|contradiction].
    destruct (object_inv _ _ _ _ _ _ _ R Q) as [(B & -> & R1 & D1)|(ws & r1 & it & mods1 & ops1 & S1 & U1 & DS & IO & PL & R1 & L1)].
    - destruct fuel; cbn [read_objects]; rewrite D1; discriminate.
    - eapply IH; [exact R1|lia].
  Qed.
End Accept.
