(** * Property C85: concatenated Radiance descriptions give the scenes side by side (any arithmetic) *)
From Verif Require Import NumR Text SpecImage Geometry Triangle Sphere Colour Ray Bvh Material Scene SpecScene Radiance SpecRadiance RadianceProofs RadianceProofs2 P_Radiance.
Open Scope nat_scope.

Section Beside.
  Context {N : Num} {T : Trig N} {E : Ext}.
  (** scene b beside scene a: everything of a as it is, then everything of b with its material numbers counted on from those of a *)
  Definition renumber (k : nat) (o : Object) : Object := mkObject (ob_primitive o) (k + ob_front o) (k + ob_back o).
  Definition beside (a b : Scene) : Scene :=
    let k := length (sc_materials a) in
    mkScene
      (mkArr (a_tri (sc_arrays a) ++ a_tri (sc_arrays b))
             (a_front (sc_arrays a) ++ map (Nat.add k) (a_front (sc_arrays b)))
             (a_back (sc_arrays a) ++ map (Nat.add k) (a_back (sc_arrays b)))
             (a_norm (sc_arrays a) ++ a_norm (sc_arrays b)))
      (sc_materials a ++ sc_materials b)
      (sc_lights a ++ map (renumber k) (sc_lights b))
      (sc_distant_lights a ++ map (renumber k) (sc_distant_lights b))
      None None None.
  (** the names of the materials a description defines *)
  Definition defines parse new_source triangulate (src : bytes) (name : bytes) : Prop :=
    exists wss items, runs src (concat wss) /\ Forall2 (describes parse new_source triangulate) wss items /\ In name (flat_map defined_name items).

  Definition renumber_op (k : nat) (o : op) : op :=
    match o with AddObject f b p => AddObject (k + f) (k + b) p | o => o end.
  Definition adds (o : op) : Prop := match o with AddMaterial _ | AddObject _ _ _ => True | _ => False end.
  Definition bare (s : Scene) : Prop := sc_accelerator s = None /\ sc_sky_colour s = None /\ sc_sky s = None.

  Lemma map_repeat_add (k f n : nat) : map (Nat.add k) (repeat f n) = repeat (k + f) n.
  Proof. induction n as [|n IH]; cbn; [reflexivity|]. rewrite IH. reflexivity. Qed.

  Lemma step_beside (a : Scene) o b b' : adds o -> step b o = Ret b' -> step (beside a b) (renumber_op (length (sc_materials a)) o) = Ret (beside a b').
  Proof.
    destruct o as [m|f k p| | |f|c]; cbn [adds]; intros K; try contradiction; cbn [step renumber_op].
    - intros H. assert (Q : b' = fst (push_material b m)) by congruence. subst b'. f_equal. unfold push_material, beside. cbn [fst sc_materials set_materials sc_arrays sc_lights sc_distant_lights sc_accelerator sc_sky_colour sc_sky]. rewrite app_assoc. reflexivity.
    - unfold push_object. cbn [sc_materials beside].
      rewrite !nth_error_app2 by lia. replace (length (sc_materials a) + f - length (sc_materials a)) with f by lia. replace (length (sc_materials a) + k - length (sc_materials a)) with k by lia.
      destruct (nth_error (sc_materials b) f) as [mf|]; [|discriminate]. destruct (nth_error (sc_materials b) k) as [mb|]; [|discriminate].
      unfold register_light. destruct (emits_direct_light mf || emits_direct_light mb); [destruct (id_is_source (prim_id p))|];
      (destruct (mesh_primitive p _) as [[ts ns]| |]; cbn [obind]; [|discriminate|discriminate]); intros H;
      (match type of H with Ret ?x = Ret ?y => assert (Q : y = x) by congruence end); subst b'; f_equal; unfold beside;
      cbn [set_arrays set_lights set_distant_lights sc_arrays sc_materials sc_lights sc_distant_lights sc_accelerator sc_sky_colour sc_sky a_tri a_front a_back a_norm];
      rewrite ?map_app, ?map_repeat_add, ?app_assoc; reflexivity.
  Qed.
  Lemma play_beside (a : Scene) ops : Forall adds ops -> forall b b', play b ops = Ret b' ->
    play (beside a b) (map (renumber_op (length (sc_materials a))) ops) = Ret (beside a b').
  Proof.
    induction 1 as [|o ops K _ IH]; intros b b' H; cbn [map play] in *; [congruence|].
    destruct (step b o) as [b1| |] eqn:S; cbn [obind] in H; try discriminate. rewrite (step_beside a o b b1 K S). cbn [obind]. apply IH. exact H.
  Qed.
  Lemma beside_new (a : Scene) : bare a -> beside a scene_new = a.
  Proof. intros (A & B & C). destruct a as [[t f b n] m l dl acc sc sk]. cbn in *. subst. unfold beside. cbn. rewrite !app_nil_r. reflexivity. Qed.

  Lemma stands_for_adds rs names items ops : stands_for rs names items ops -> Forall adds ops.
  Proof. induction 1; [constructor|constructor; [exact I|assumption]|]. apply Forall_app. split; [|assumption]. apply Forall_map. apply Forall_forall. intros; exact I. Qed.
  Lemma step_bare o s s' : adds o -> bare s -> step s o = Ret s' -> bare s'.
  Proof.
    destruct o as [m|f k p| | |f|c]; cbn [adds]; intros K (A & B & C); try contradiction; cbn [step].
    - intros H. assert (Q : s' = fst (push_material s m)) by congruence. subst s'. split; [exact A|split; [exact B|exact C]].
    - unfold push_object. destruct (nth_error (sc_materials s) f) as [mf|]; [|discriminate]. destruct (nth_error (sc_materials s) k) as [mb|]; [|discriminate].
      unfold register_light. destruct (emits_direct_light mf || emits_direct_light mb); [destruct (id_is_source (prim_id p))|];
      (destruct (mesh_primitive p _) as [[ts ns]| |]; cbn [obind]; [|discriminate|discriminate]); intros H;
      (match type of H with Ret ?x = Ret ?y => assert (Q : y = x) by congruence end); subst s'; split; [exact A|split; [exact B|exact C]|exact A|split; [exact B|exact C]|exact A|split; [exact B|exact C]].
  Qed.
  Lemma play_bare ops : Forall adds ops -> forall s s', bare s -> play s ops = Ret s' -> bare s'.
  Proof.
    induction 1 as [|o ops K _ IH]; intros s s' B H; cbn [play] in H; [congruence|].
    destruct (step s o) as [s1| |] eqn:S; cbn [obind] in H; try discriminate. eapply IH; [|exact H]. eapply step_bare; eassumption.
  Qed.

  Lemma stands_for_app rs names items ops items' ops' : stands_for rs names items ops -> stands_for rs (names ++ flat_map defined_name items) items' ops' ->
    stands_for rs names (items ++ items') (ops ++ ops').
  Proof.
    intros H. revert items' ops'. induction H as [names|names name m items ops H IH|names modi ps i items ops R H IH]; intros items' ops' H'; cbn [flat_map defined_name app] in *.
    - rewrite app_nil_r in H'. exact H'.
    - constructor. apply IH. rewrite <- app_assoc. exact H'.
    - rewrite <- app_assoc. apply sf_place; auto.
  Qed.
  Lemma first_definition_later (before names : list bytes) modi i : (forall n, In n before -> ~ In n names) -> first_definition names modi i -> first_definition (before ++ names) modi (length before + i).
  Proof.
    intros D [H1 H2]. split.
    - rewrite nth_error_app2 by lia. replace (length before + i - length before) with i by lia. exact H1.
    - intros j L Q. destruct (Nat.lt_ge_cases j (length before)) as [K|K].
      + rewrite nth_error_app1 in Q by exact K. apply nth_error_In in Q. apply (D _ Q). eapply nth_error_In. exact H1.
      + rewrite nth_error_app2 in Q by exact K. apply (H2 (j - length before)); [lia|exact Q].
  Qed.
  Lemma stands_for_later (before : list bytes) : forall names items ops, (forall n, In n before -> ~ In n (names ++ flat_map defined_name items)) ->
    stands_for first_definition names items ops -> stands_for first_definition (before ++ names) items (map (renumber_op (length before)) ops).
  Proof.
    intros names items ops D H. revert D. induction H as [names|names name m items ops H IH|names modi ps i items ops R H IH]; intros D; cbn [map renumber_op flat_map defined_name app] in *.
    - constructor.
    - constructor. rewrite <- app_assoc. apply IH. intros n Hn. rewrite <- app_assoc. apply D. exact Hn.
    - rewrite map_app, map_map. cbn [renumber_op]. apply (sf_place first_definition (before ++ names) modi ps (length before + i)); [|apply IH; exact D].
      apply first_definition_later; [|exact R]. intros n Hn Q. apply (D n Hn). apply in_or_app. left. exact Q.
  Qed.
End Beside.

Lemma runs_blanks gap src ws : Forall blank gap -> runs src ws -> runs (gap ++ src) ws.
Proof.
  intros G H. destruct H as [gap2 G2|gap2 w rest ws G2 W1 W2 W3 H].
  - constructor. apply Forall_app. auto.
  - rewrite app_assoc. constructor; auto. apply Forall_app. auto.
Qed.
Lemma runs_app a wa b wb c : runs a wa -> runs b wb -> blank c -> runs (a ++ c :: b) (wa ++ wb).
Proof.
  intros HA HB HC. induction HA as [gap G|gap w rest ws G W1 W2 W3 H IH]; cbn [app].
  - change (c :: b) with ([c] ++ b). rewrite app_assoc. apply runs_blanks; [|exact HB]. apply Forall_app. split; [exact G|]. constructor; [exact HC|constructor].
  - rewrite <- !app_assoc. constructor; auto. right. destruct W3 as [->|(x & r & -> & Hx)]; cbn [app]; eauto.
Qed.

(** ** C85 *)
Theorem C85_append : forall (N : Num) (T : Trig N) (E : Ext) parse new_source triangulate a b c sa sb, parse [] = None -> blank c ->
  from_radiance_source parse new_source triangulate a = Ret sa -> from_radiance_source parse new_source triangulate b = Ret sb ->
  (forall name, defines parse new_source triangulate a name -> ~ defines parse new_source triangulate b name) ->
  from_radiance_source parse new_source triangulate (a ++ c :: b) = Ret (beside sa sb).
Proof.
  intros N T E parse new_source triangulate a b c sa sb PN HC HA HB HD.
  apply (C40_reads_the_description _ _ _ _ _ _ _ _ PN) in HA as (wa & wsa & ia & oa & RA & UA & EA & FA & SA & PA).
  apply (C40_reads_the_description _ _ _ _ _ _ _ _ PN) in HB as (wb & wsb & ib & ob & RB & UB & EB & FB & SB & PB). subst wa wb.
  apply (C40_reads_the_description _ _ _ _ _ _ _ _ PN).
  pose proof (stands_for_materials _ _ _ _ SA _ _ PA) as MA. cbn [sc_materials scene_new app] in MA.
  assert (LN : length (flat_map defined_name ia) = length (sc_materials sa)).
  { rewrite MA. clear. induction ia as [|[n m|m ps] l IH]; cbn [flat_map defined_name defined app length]; [reflexivity|rewrite IH; reflexivity|exact IH]. }
  exists (concat wsa ++ concat wsb), (wsa ++ wsb), (ia ++ ib), (oa ++ map (renumber_op (length (sc_materials sa))) ob).
  split; [apply runs_app; assumption|]. split; [apply Forall_app; auto|]. split; [rewrite concat_app; reflexivity|]. split; [apply Forall2_app; assumption|].
  split.
  - apply stands_for_app; [exact SA|]. rewrite <- LN. cbn [app]. rewrite <- (app_nil_r (flat_map defined_name ia)) at 1. apply stands_for_later; [|exact SB].
    intros n H1 H2. apply (HD n); [exists wsa, ia; auto|exists wsb, ib; auto].
  - rewrite play_app, PA. cbn [obind]. rewrite <- (beside_new sa) at 1.
    + apply play_beside; [eapply stands_for_adds; exact SB|exact PB].
    + eapply play_bare; [eapply stands_for_adds; exact SA| |exact PA]. repeat split.
Qed.
Print Assumptions C85_append.

(** the names a description defines are those of its one reading *)
Lemma defines_iff {N : Num} {T : Trig N} {E : Ext} parse new_source triangulate src wss items name :
  runs src (concat wss) -> Forall2 (describes parse new_source triangulate) wss items ->
  (defines parse new_source triangulate src name <-> In name (flat_map defined_name items)).
Proof.
  intros R H. split; [|intros Q; exists wss, items; auto].
  intros (wss' & items' & R' & H' & Q). apply runs_split in R. apply runs_split in R'.
  rewrite (C40_one_reading _ _ _ _ _ _ wss items wss' items' H H' ltac:(congruence)). exact Q.
Qed.
(** two small descriptions: a red ball and a shining triangle.  Together they are a scene with both *)
Definition ball_text : bytes := lit "void plastic red 0 0 5 1 0 0 0 0 red sphere ball 0 0 4 1 2 3 4".
Definition tile_text : bytes := lit "void light lamp 0 0 3 7 7 7 lamp polygon tile 0 0 9  0 0 0  1 0 0  0 1 0".
Example C85_hyp : forall (T : Trig NumR) (E : Ext), let n k := @flit NumR (Z.of_nat k) 1 in
  exists sa sb, from_radiance_source (N := NumR) toy_parse toy_source toy_triangulate ball_text = Ret sa /\
  from_radiance_source (N := NumR) toy_parse toy_source toy_triangulate tile_text = Ret sb /\
  (forall name, defines (N := NumR) toy_parse toy_source toy_triangulate ball_text name -> ~ defines (N := NumR) toy_parse toy_source toy_triangulate tile_text name) /\
  from_radiance_source (N := NumR) toy_parse toy_source toy_triangulate (ball_text ++ NL :: tile_text) = Ret (beside sa sb) /\
  sc_materials (beside sa sb) = [Plastic (mkS (n 1) (n 0) (n 0)) (n 0) (n 0); Light (mkS (n 7) (n 7) (n 7))] /\
  sc_lights (beside sa sb) = [mkObject (PTriangle (mkTri (V3 (n 0) (n 0) (n 0)) (V3 (n 1) (n 0) (n 0)) (V3 (n 0) (n 1) (n 0)))) 1 1].
Proof.
  intros T E n.
  set (red := Plastic (mkS (n 1) (n 0) (n 0)) (n 0) (n 0)). set (lamp := Light (mkS (n 7) (n 7) (n 7))).
  set (ball := PSphere (mkSphere (V3 (n 1) (n 2) (n 3)) (n 4))). set (tri := mkTri (V3 (n 0) (n 0) (n 0)) (V3 (n 1) (n 0) (n 0)) (V3 (n 0) (n 1) (n 0))).
  set (wa := [[lit "void"; lit "plastic"; lit "red"; lit "0"; lit "0"; lit "5"] ++ map list_ascii_of_string ["1"; "0"; "0"; "0"; "0"]%string;
     [lit "red"; lit "sphere"; lit "ball"; lit "0"; lit "0"; lit "4"] ++ map list_ascii_of_string ["1"; "2"; "3"; "4"]%string]).
  set (wb := [[lit "void"; lit "light"; lit "lamp"; lit "0"; lit "0"; lit "3"] ++ map list_ascii_of_string ["7"; "7"; "7"]%string;
     [lit "lamp"; lit "polygon"; lit "tile"; lit "0"; lit "0"; lit "9"] ++ map list_ascii_of_string ["0"; "0"; "0"; "1"; "0"; "0"; "0"; "1"; "0"]%string]).
  set (ia := [Define (lit "red") red; Place (lit "red") [ball]]). set (ib := [Define (lit "lamp") lamp; Place (lit "lamp") [PTriangle tri]]).
  assert (RA : runs ball_text (concat wa)) by (apply runs_split; vm_compute; reflexivity).
  assert (RB : runs tile_text (concat wb)) by (apply runs_split; vm_compute; reflexivity).
  assert (DA : Forall2 (describes (N := NumR) toy_parse toy_source toy_triangulate) wa ia).
  { constructor; [apply d_plastic; repeat (constructor; [reflexivity|]); constructor|].
    constructor; [apply d_sphere; repeat (constructor; [reflexivity|]); constructor|constructor]. }
  assert (DB : Forall2 (describes (N := NumR) toy_parse toy_source toy_triangulate) wb ib).
  { constructor; [apply d_light; repeat (constructor; [reflexivity|]); constructor|].
    constructor; [|constructor]. apply (d_polygon toy_parse toy_source toy_triangulate _ _ _ _ [V3 (n 0) (n 0) (n 0); V3 (n 1) (n 0) (n 0); V3 (n 0) (n 1) (n 0)] [tri]); [reflexivity| |reflexivity]; repeat (constructor; [reflexivity|]); constructor. }
  destruct (push_ok (fst (push_material scene_new red)) 0 ball red eq_refl ltac:(left; eexists; reflexivity)) as (sa & PA & MA).
  destruct (push_ok (fst (push_material scene_new lamp)) 0 (PTriangle tri) lamp eq_refl ltac:(right; eexists; reflexivity)) as (sb & PB & MB).
  exists sa, sb.
  assert (QA : from_radiance_source (N := NumR) toy_parse toy_source toy_triangulate ball_text = Ret sa).
  { apply (C40_materials_in_order NumR T E toy_parse toy_source toy_triangulate ball_text wa ia ([AddMaterial red] ++ map (AddObject 0 0) [ball] ++ []) sa); [reflexivity|exact RA| |exact DA| |].
    - repeat (constructor; [reflexivity|]). constructor.
    - constructor. apply sf_place; [split; [reflexivity|lia]|constructor].
    - cbn [app map play step obind]. rewrite PA. reflexivity. }
  assert (QB : from_radiance_source (N := NumR) toy_parse toy_source toy_triangulate tile_text = Ret sb).
  { apply (C40_materials_in_order NumR T E toy_parse toy_source toy_triangulate tile_text wb ib ([AddMaterial lamp] ++ map (AddObject 0 0) [PTriangle tri] ++ []) sb); [reflexivity|exact RB| |exact DB| |].
    - repeat (constructor; [reflexivity|]). constructor.
    - constructor. apply sf_place; [split; [reflexivity|lia]|constructor].
    - cbn [app map play step obind]. rewrite PB. reflexivity. }
  assert (D : forall name, defines (N := NumR) toy_parse toy_source toy_triangulate ball_text name -> ~ defines (N := NumR) toy_parse toy_source toy_triangulate tile_text name).
  { intros name A B. apply (proj1 (defines_iff _ _ _ _ _ _ _ RA DA)) in A. apply (proj1 (defines_iff _ _ _ _ _ _ _ RB DB)) in B.
    destruct A as [<-|[]]. destruct B as [B|[]]. discriminate B. }
  split; [exact QA|]. split; [exact QB|]. split; [exact D|]. split; [apply (C85_append NumR T E toy_parse toy_source toy_triangulate ball_text tile_text NL sa sb); [vm_compute; reflexivity|vm_compute; reflexivity|exact QA|exact QB|exact D]|].
  split; [cbn [beside sc_materials]; rewrite MA, MB; reflexivity|].
  assert (LA : sc_lights sa = []).
  { revert PA. unfold push_object. cbn [nth_error sc_materials push_material fst set_materials scene_new app]. unfold register_light. unfold red at 1 2; cbn [emits_direct_light orb].
    match goal with |- context [mesh_primitive ?a ?b] => destruct (mesh_primitive a b) as [[ts ns]| |] end; cbn [obind]; intros Q; [|discriminate Q|discriminate Q]. apply (f_equal (fun o => match o with Ret s => sc_lights s | _ => [] end)) in Q. cbn [sc_lights set_arrays set_lights set_materials scene_new app] in Q. symmetry. exact Q. }
  assert (LB : sc_lights sb = [mkObject (PTriangle tri) 0 0]).
  { revert PB. unfold push_object. cbn [nth_error sc_materials push_material fst set_materials scene_new app]. unfold register_light. unfold lamp at 1 2; cbn [emits_direct_light orb prim_id id_is_source].
    match goal with |- context [mesh_primitive ?a ?b] => destruct (mesh_primitive a b) as [[ts ns]| |] end; cbn [obind]; intros Q; [|discriminate Q|discriminate Q]. apply (f_equal (fun o => match o with Ret s => sc_lights s | _ => [] end)) in Q. cbn [sc_lights set_arrays set_lights set_materials scene_new app] in Q. symmetry. exact Q. }
  cbn [beside sc_lights]. rewrite LA, LB, MA. reflexivity.
Qed.
