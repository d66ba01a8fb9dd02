(** * Properties C39-C41: Radiance scene descriptions *)
From Verif Require Import NumR Text TextProofs SpecImage HeaderProofs Scene SpecScene Radiance SpecRadiance RadianceProofs RadianceProofs2.
From Coq Require Import Reals Lra Lia.
Open Scope nat_scope.

(** ** C39 - tokens *)
(** the words of a text: [runs] determines them *)
Theorem C39_words_exist_and_are_unique : forall src, exists ws, runs src ws /\ forall ws', runs src ws' -> ws' = ws.
Proof. intros src. exists (split_ws src). split; [apply runs_split; reflexivity|]. intros ws' H. apply runs_split in H. congruence. Qed.
Print Assumptions C39_words_exist_and_are_unique.

(** reading n tokens gives the first n words, and empty tokens once the text is over; the reader never leaves the text *)
Theorem C39_tokens_are_words : forall src ws n, runs src ws -> Forall (fun w => utf8 w = true) ws ->
  exists rd, take_tokens n src rd_default = Ret (firstn n ws ++ repeat [] (n - length ws), rd) /\ rd_index rd <= length src.
Proof.
  intros src ws n H U. apply runs_split in H. subst ws.
  destruct (take_tokens_spec n src rd_default src [] (reads_start src) U) as (rd & rest & E1 & R). exists rd. split; [exact E1|apply R].
Qed.
Print Assumptions C39_tokens_are_words.

(** whatever the text, also when a word is not UTF-8 and reading it panics: the reader answers *)
Lemma take_tokens_ns n : forall src rd rest mods, reads src rd rest mods -> take_tokens n src rd <> Stuck.
Proof.
  induction n as [|n IH]; intros src rd rest mods R; cbn [take_tokens]; [discriminate|]. pose proof (token_not_stuck _ _ _ _ R) as NS.
  destruct (consume_token src rd) as [[t rd1]| |] eqn:Q; cbn [obind]; [|discriminate|contradiction].
  destruct (token_reads _ _ _ _ _ _ R Q) as [r1 R1]. specialize (IH _ _ _ _ R1). destruct (take_tokens n src rd1) as [[ts rd2]| |]; cbn [obind]; [discriminate|discriminate|contradiction].
Qed.
Theorem C39_always_answers : forall src n, take_tokens n src rd_default <> Stuck /\
  (forall (N : Num) (T : Trig N) (E : Ext) parse new_source triangulate, parse [] = None -> from_radiance_source parse new_source triangulate src <> Stuck).
Proof.
  intros src n. split; [eapply take_tokens_ns; apply reads_start|].
  intros N T E parse new_source triangulate PN. unfold from_radiance_source. eapply read_ns; [exact PN|apply reads_start|lia].
Qed.
Print Assumptions C39_always_answers.
Theorem C39_bad_text_panics : forall src ws n w, runs src ws -> In w (firstn n ws) -> utf8 w = false -> take_tokens n src rd_default = Crash.
Proof.
  intros src ws n w H. apply runs_split in H. pose proof (reads_start src) as R. revert R H.
  enough (G : forall n rest ws rd mods, reads src rd rest mods -> split_ws rest = ws -> In w (firstn n ws) -> utf8 w = false -> take_tokens n src rd = Crash) by (intros R H; exact (G n src ws rd_default [] R H)).
  clear n ws. induction n as [|n IH]; intros rest ws rd mods R H I U; [destruct ws; contradiction|]. destruct ws as [|t ws]; [contradiction|].
  cbn [take_tokens]. destruct (token_next _ _ _ _ _ _ R H) as (rd1 & r1 & R1 & S1 & _ & _ & _ & Q). rewrite Q. destruct (utf8 t) eqn:Ut; cbn [obind]; [|reflexivity].
  cbn [firstn] in I. destruct I as [->|I]; [congruence|]. rewrite (IH r1 ws rd1 mods R1 S1 I U). reflexivity.
Qed.
Print Assumptions C39_bad_text_panics.

(** the line an error message names is the line the reader has come to, counted from zero *)
Lemma take_tokens_reads n : forall src rd rest mods ts rd', reads src rd rest mods -> take_tokens n src rd = Ret (ts, rd') -> exists rest', reads src rd' rest' mods.
Proof.
  induction n as [|n IH]; intros src rd rest mods ts rd' R H; cbn [take_tokens] in H.
  - injection H as _ <-. eauto.
  - destruct (consume_token src rd) as [[t rd1]| |] eqn:Q; cbn [obind] in H; try discriminate H. destruct (token_reads _ _ _ _ _ _ R Q) as [r1 R1].
    destruct (take_tokens n src rd1) as [[ts1 rd2]| |] eqn:Q2; cbn [obind] in H; try discriminate H. injection H as _ <-. eauto.
Qed.
Theorem C39_line_partial : forall src n ts rd, take_tokens n src rd_default = Ret (ts, rd) -> rd_line rd = newlines (firstn (rd_index rd) src).
Proof. intros src n ts rd H. destruct (take_tokens_reads _ _ _ _ _ _ _ (reads_start src) H) as (r & R). apply R. Qed.
Print Assumptions C39_line_partial.
Theorem C39_line_refuted : forall src n ts rd, take_tokens n src rd_default = Ret (ts, rd) ->
  rd_line rd <> 1 + newlines (firstn (rd_index rd) src).
Proof. intros src n ts rd H. rewrite (C39_line_partial _ _ _ _ H). lia. Qed.
Print Assumptions C39_line_refuted.
Example C39_case : take_tokens 3 (lit " ab
 c  ") rd_default = Ret ([lit "ab"; lit "c"; []], mkReader 8 true [] 1) /\ runs (lit " ab
 c  ") [lit "ab"; lit "c"].
Proof. split; [vm_compute; reflexivity|apply runs_split; vm_compute; reflexivity]. Qed.

(** ** C40 - the scene a description describes *)
(** a text is accepted exactly when its words are the words of supported items, and the scene is what those items stand for *)
Theorem C40_reads_the_description : forall (N : Num) (T : Trig N) (E : Ext) parse new_source triangulate src s, parse [] = None ->
  (from_radiance_source parse new_source triangulate src = Ret s <->
   exists ws wss items ops, runs src ws /\ Forall (fun w => utf8 w = true) ws /\ ws = concat wss /\
     Forall2 (describes parse new_source triangulate) wss items /\ stands_for first_definition [] items ops /\ play scene_new ops = Ret s).
Proof.
  intros N T E parse new_source triangulate src s PN. unfold from_radiance_source. split.
  - intros H. destruct (read_inv parse new_source triangulate PN _ _ _ _ _ _ _ (reads_start src) H) as (wss & items & ops & S0 & U & F2 & SF & PL).
    exists (split_ws src), wss, items, ops. split; [apply runs_split; reflexivity|]. rewrite S0. auto.
  - intros (ws & wss & items & ops & R & U & -> & F2 & SF & PL). apply runs_split in R.
    eapply (read_ok parse new_source triangulate PN); try eassumption; [apply reads_start|lia].
Qed.
Print Assumptions C40_reads_the_description.

(** white space does not matter *)
Theorem C40_layout : forall (N : Num) (T : Trig N) (E : Ext) parse new_source triangulate src1 src2 ws, parse [] = None -> runs src1 ws -> runs src2 ws ->
  from_radiance_source parse new_source triangulate src1 = from_radiance_source parse new_source triangulate src2.
Proof.
  intros N T E parse new_source triangulate src1 src2 ws PN R1 R2.
  assert (H : forall a b s, runs a ws -> runs b ws -> from_radiance_source parse new_source triangulate a = Ret s -> from_radiance_source parse new_source triangulate b = Ret s).
  { intros a b s Ra Rb H. destruct (proj1 (C40_reads_the_description _ _ _ parse new_source triangulate a s PN) H) as (ws' & wss & items & ops & R & U & EQ & F2 & SF & PL).
    apply runs_split in R. apply runs_split in Ra. apply (proj2 (C40_reads_the_description _ _ _ parse new_source triangulate _ _ PN)). exists ws', wss, items, ops. split; [congruence|]. auto 10. }
  destruct (from_radiance_source parse new_source triangulate src1) as [s1| |] eqn:E1.
  - symmetry. eapply H; [exact R1|exact R2|exact E1].
  - destruct (from_radiance_source parse new_source triangulate src2) as [s2| |] eqn:E2; [|reflexivity|].
    + pose proof (H _ _ _ R2 R1 E2). congruence.
    + destruct (C39_always_answers src2 0) as [_ X]. specialize (X _ _ _ parse new_source triangulate PN). contradiction.
  - destruct (C39_always_answers src1 0) as [_ X]. specialize (X _ _ _ parse new_source triangulate PN). contradiction.
Qed.
Print Assumptions C40_layout.

(** the materials of the scene are the defined ones, in the order of the text *)
Lemma push_object_materials {N : Num} {T : Trig N} {E : Ext} s i j p s' : push_object s i j p = Ret s' -> sc_materials s' = sc_materials s.
Proof.
  unfold push_object. destruct (nth_error (sc_materials s) i) as [mf|]; [|discriminate]. destruct (nth_error (sc_materials s) j) as [mb|]; [|discriminate].
  destruct (register_light s i j p mf mb) as [s1 l] eqn:RL. assert (M : sc_materials s1 = sc_materials s).
  { unfold register_light in RL. repeat match type of RL with (if ?b then _ else _) = _ => destruct b end; injection RL as <- _; reflexivity. }
  destruct (mesh_primitive p l) as [[ts ns]| |]; cbn [obind]; try discriminate. intros H. injection H as <-. exact M.
Qed.
Lemma stands_for_materials {N : Num} {T : Trig N} {E : Ext} rs names items ops : stands_for rs names items ops -> forall s s', play s ops = Ret s' ->
  sc_materials s' = sc_materials s ++ flat_map defined items.
Proof.
  induction 1 as [names|names name m items ops _ IH|names modi ps i items ops _ _ IH]; intros s s' PL.
  - injection PL as <-. cbn. rewrite app_nil_r. reflexivity.
  - cbn [play step obind] in PL. rewrite (IH _ _ PL). cbn [flat_map defined app]. unfold push_material. cbn. rewrite <- app_assoc. reflexivity.
  - cbn [flat_map defined app]. revert s PL. induction ps as [|p ps IHp]; intros s PL; [apply IH; exact PL|].
    cbn [map app play step] in PL. destruct (push_object s i i p) as [s1| |] eqn:PO; cbn [obind] in PL; try discriminate PL.
    rewrite (IHp _ PL), (push_object_materials _ _ _ _ _ PO). reflexivity.
Qed.
Theorem C40_materials_in_order : forall (N : Num) (T : Trig N) (E : Ext) parse new_source triangulate src wss items ops s, parse [] = None ->
  runs src (concat wss) -> Forall (fun w => utf8 w = true) (concat wss) -> Forall2 (describes parse new_source triangulate) wss items ->
  stands_for first_definition [] items ops -> play scene_new ops = Ret s ->
  from_radiance_source parse new_source triangulate src = Ret s /\ sc_materials s = flat_map defined items.
Proof.
  intros N T E parse new_source triangulate src wss items ops s PN R U F2 SF PL. split.
  - apply (proj2 (C40_reads_the_description _ _ _ parse new_source triangulate _ _ PN)). exists (concat wss), wss, items, ops. auto 10.
  - rewrite (stands_for_materials _ _ _ _ SF _ _ PL). reflexivity.
Qed.
Print Assumptions C40_materials_in_order.

Lemma push_ok {N : Num} {T : Trig N} {E : Ext} s i p m : nth_error (sc_materials s) i = Some m -> ((exists q, p = PSphere q) \/ exists q, p = PTriangle q) ->
  exists s', push_object s i i p = Ret s' /\ sc_materials s' = sc_materials s.
Proof.
  intros H K. assert (X : exists s', push_object s i i p = Ret s').
  { unfold push_object. rewrite H. destruct (register_light s i i p m m) as [s1 l].
    destruct K as [[q ->]|[q ->]]; cbn [mesh_primitive obind]; [destruct (mesh_sphere q)|destruct (mesh_triangle q)]; eauto. }
  destruct X as [s' X]. exists s'. split; [exact X|]. eapply push_object_materials. exact X.
Qed.
(** a description, read: numbers are written as natural numbers *)
Definition toy_parse {N : Num} (t : bytes) : option F := match parse_usize t with Some n => Some (flit (Z.of_nat n) 1) | None => None end.
Definition toy_text : bytes := lit "
void plastic red 0 0 5 1 0 0 0 0
void	light   lamp 0 0 3   7 7 7
red sphere ball 0 0 4 1 2 3 4
lamp polygon tile 0 0 9  0 0 0  1 0 0  0 1 0
red polygon nothing 0 0 0".
Definition toy_triangulate {N : Num} (ps : list Vec) : option (list Triangle) :=
  match ps with [a; b; c] => Some [mkTri a b c] | [] => Some [] | _ => None end.
Definition toy_source {N : Num} (v : Vec) (a : F) : DistantSource3D := mkSource v a.
Example C40_case : forall (T : Trig NumR) (E : Ext), let n k := flit (Z.of_nat k) 1 in
  exists s, from_radiance_source (N := NumR) toy_parse toy_source toy_triangulate toy_text = Ret s /\
  sc_materials s = [Plastic (mkS (n 1) (n 0) (n 0)) (n 0) (n 0); Light (mkS (n 7) (n 7) (n 7))] /\
  exists ops, stands_for first_definition [] [Define (lit "red") (Plastic (mkS (n 1) (n 0) (n 0)) (n 0) (n 0)); Define (lit "lamp") (Light (mkS (n 7) (n 7) (n 7)));
    Place (lit "red") [PSphere (mkSphere (V3 (n 1) (n 2) (n 3)) (n 4))];
    Place (lit "lamp") [PTriangle (mkTri (V3 (n 0) (n 0) (n 0)) (V3 (n 1) (n 0) (n 0)) (V3 (n 0) (n 1) (n 0)))]; Place (lit "red") []] ops /\ play scene_new ops = Ret s.
Proof.
  intros T E n.
  set (items := [Define (lit "red") (Plastic (mkS (n 1) (n 0) (n 0)) (n 0) (n 0)); Define (lit "lamp") (Light (mkS (n 7) (n 7) (n 7)));
    Place (lit "red") [PSphere (mkSphere (V3 (n 1) (n 2) (n 3)) (n 4))];
    Place (lit "lamp") [PTriangle (mkTri (V3 (n 0) (n 0) (n 0)) (V3 (n 1) (n 0) (n 0)) (V3 (n 0) (n 1) (n 0)))]; Place (lit "red") []]).
  set (s0 := fst (push_material (fst (push_material scene_new (Plastic (mkS (n 1) (n 0) (n 0)) (n 0) (n 0)))) (Light (mkS (n 7) (n 7) (n 7))))).
  destruct (push_ok s0 0 (PSphere (mkSphere (V3 (n 1) (n 2) (n 3)) (n 4))) _ eq_refl ltac:(left; eexists; reflexivity)) as (s1 & P1 & M1).
  destruct (push_ok s1 1 (PTriangle (mkTri (V3 (n 0) (n 0) (n 0)) (V3 (n 1) (n 0) (n 0)) (V3 (n 0) (n 1) (n 0)))) (Light (mkS (n 7) (n 7) (n 7))) ltac:(rewrite M1; reflexivity) ltac:(right; eexists; reflexivity)) as (s2 & P2 & M2).
  exists s2.
  set (ops := [AddMaterial (Plastic (mkS (n 1) (n 0) (n 0)) (n 0) (n 0)); AddMaterial (Light (mkS (n 7) (n 7) (n 7)))] ++ map (AddObject 0 0) [PSphere (mkSphere (V3 (n 1) (n 2) (n 3)) (n 4))]
    ++ map (AddObject 1 1) [PTriangle (mkTri (V3 (n 0) (n 0) (n 0)) (V3 (n 1) (n 0) (n 0)) (V3 (n 0) (n 1) (n 0)))] ++ map (AddObject 0 0) [] ++ []).
  assert (SF : stands_for first_definition [] items ops).
  { unfold items, ops. cbn [app]. constructor. constructor. apply sf_place; [split; [reflexivity|lia]|]. apply sf_place; [split; [reflexivity|]|].
    - intros [|j] L; [discriminate|lia].
    - apply (sf_place _ _ _ [] 0 [] []); [split; [reflexivity|lia]|constructor]. }
  assert (PL : play scene_new ops = Ret s2).
  { unfold ops. cbn [app map play step obind]. fold s0. rewrite P1. cbn [obind]. rewrite P2. reflexivity. }
  destruct (C40_materials_in_order NumR T E toy_parse toy_source toy_triangulate toy_text
    [[lit "void"; lit "plastic"; lit "red"; lit "0"; lit "0"; lit "5"] ++ map list_ascii_of_string ["1"; "0"; "0"; "0"; "0"]%string;
     [lit "void"; lit "light"; lit "lamp"; lit "0"; lit "0"; lit "3"] ++ map list_ascii_of_string ["7"; "7"; "7"]%string;
     [lit "red"; lit "sphere"; lit "ball"; lit "0"; lit "0"; lit "4"] ++ map list_ascii_of_string ["1"; "2"; "3"; "4"]%string;
     [lit "lamp"; lit "polygon"; lit "tile"; lit "0"; lit "0"; lit "9"] ++ map list_ascii_of_string ["0"; "0"; "0"; "1"; "0"; "0"; "0"; "1"; "0"]%string;
     [lit "red"; lit "polygon"; lit "nothing"; lit "0"; lit "0"; lit "0"] ++ []] items ops s2) as [R M].
  - reflexivity.
  - apply runs_split. vm_compute. reflexivity.
  - repeat (constructor; [reflexivity|]). constructor.
  - constructor; [apply d_plastic; repeat (constructor; [reflexivity|]); constructor|].
    constructor; [apply d_light; repeat (constructor; [reflexivity|]); constructor|].
    constructor; [apply d_sphere; repeat (constructor; [reflexivity|]); constructor|].
    constructor; [apply (d_polygon toy_parse toy_source toy_triangulate _ _ _ _ [V3 (n 0) (n 0) (n 0); V3 (n 1) (n 0) (n 0); V3 (n 0) (n 1) (n 0)] [mkTri (V3 (n 0) (n 0) (n 0)) (V3 (n 1) (n 0) (n 0)) (V3 (n 0) (n 1) (n 0))]); [reflexivity| |reflexivity]; repeat (constructor; [reflexivity|]); constructor|].
    constructor; [|constructor]. apply (d_polygon toy_parse toy_source toy_triangulate _ _ _ _ [] []); [reflexivity| |reflexivity]; constructor.
  - exact SF.
  - exact PL.
  - split; [exact R|]. split; [exact M|]. exists ops. split; [exact SF|exact PL].
Qed.

(** ** C41 - names *)
(** which definition a modifier means: the first one of its name.  With two definitions of a name it is not the latest one *)
Theorem C41_refuted : forall (N : Num) (T : Trig N) (E : Ext) parse new_source triangulate src s ws1 ws2 ws3 name m1 m2 p, parse [] = None ->
  runs src (ws1 ++ ws2 ++ ws3) -> describes parse new_source triangulate ws1 (Define name m1) -> describes parse new_source triangulate ws2 (Define name m2) ->
  describes parse new_source triangulate ws3 (Place name [p]) -> Forall (fun w => utf8 w = true) (ws1 ++ ws2 ++ ws3) ->
  play scene_new [AddMaterial m1; AddMaterial m2; AddObject 0 0 p] = Ret s ->
  from_radiance_source parse new_source triangulate src = Ret s /\ latest_definition [name; name] name 1.
Proof.
  intros N T E parse new_source triangulate src s ws1 ws2 ws3 name m1 m2 p PN R D1 D2 D3 U PL. split.
  - apply (proj2 (C40_reads_the_description _ _ _ parse new_source triangulate _ _ PN)).
    exists (ws1 ++ ws2 ++ ws3), [ws1; ws2; ws3], [Define name m1; Define name m2; Place name [p]], [AddMaterial m1; AddMaterial m2; AddObject 0 0 p].
    split; [exact R|]. split; [exact U|]. split; [cbn [concat]; rewrite app_nil_r; reflexivity|]. split; [auto|]. split; [|exact PL].
    constructor. constructor. apply (sf_place _ _ _ [p] 0 [] []); [|constructor]. split; [reflexivity|lia].
  - split; [reflexivity|]. intros [|[|j]] L; [lia|lia|destruct j; discriminate].
Qed.
Print Assumptions C41_refuted.
(** when no name is defined twice, modifiers mean their latest definition *)
Lemma latest_first names name i : NoDup names -> latest_definition names name i <-> first_definition names name i.
Proof.
  intros ND. unfold latest_definition, first_definition. split; intros [H _]; split; try exact H; intros j L K;
    rewrite NoDup_nth_error in ND; pose proof (ND i j) as X; pose proof (ND j i) as Y;
    assert (i < length names) by (apply nth_error_Some; congruence); assert (i = j) by (apply X; congruence); lia.
Qed.
Lemma stands_for_distinct {N : Num} {T : Trig N} {E : Ext} names items ops : NoDup (names ++ flat_map defined_name items) ->
  stands_for latest_definition names items ops <-> stands_for first_definition names items ops.
Proof.
  revert names ops. induction items as [|it items IH]; intros names ops ND.
  - split; intros H; inversion H; constructor.
  - destruct it as [name m|modi ps]; cbn [flat_map defined_name app] in ND.
    + assert (ND' : NoDup ((names ++ [name]) ++ flat_map defined_name items)) by (rewrite <- app_assoc; exact ND).
      split; intros H; inversion H; subst; constructor; apply (IH _ _ ND'); assumption.
    + assert (ND1 : NoDup names) by (clear - ND; induction names; [constructor|]; inversion ND as [|? ? NI ND']; subst; constructor; [intros I; apply NI; apply in_or_app; auto|auto]).
      split; intros H; inversion H; subst; econstructor; try (apply (IH _ _ ND); eassumption); apply (latest_first _ _ _ ND1); eassumption.
Qed.
Theorem C41_partial : forall (N : Num) (T : Trig N) (E : Ext) parse new_source triangulate src wss items s, parse [] = None ->
  runs src (concat wss) -> Forall (fun w => utf8 w = true) (concat wss) -> Forall2 (describes parse new_source triangulate) wss items ->
  NoDup (flat_map defined_name items) ->
  (exists ops, stands_for latest_definition [] items ops /\ play scene_new ops = Ret s) ->
  from_radiance_source parse new_source triangulate src = Ret s.
Proof.
  intros N T E parse new_source triangulate src wss items s PN R U F2 ND (ops & SF & PL).
  apply (proj2 (C40_reads_the_description _ _ _ parse new_source triangulate _ _ PN)). exists (concat wss), wss, items, ops.
  split; [exact R|]. split; [exact U|]. split; [reflexivity|]. split; [exact F2|]. split; [|exact PL]. apply stands_for_distinct; [exact ND|exact SF].
Qed.
Print Assumptions C41_partial.
(** a text describes one list of items at most *)
Lemma numbers_prefix {N : Num} parse : forall ws xs ws' xs' r r', numbers parse ws xs -> numbers parse ws' xs' -> length xs = length xs' -> ws ++ r = ws' ++ r' ->
  ws = ws' /\ xs = xs' /\ r = r'.
Proof.
  induction ws as [|w ws IH]; intros xs ws' xs' r r' H H' L Q; inversion H; subst; inversion H'; subst; try discriminate L; [auto|].
  cbn [app] in Q. injection Q as -> Q. injection L as L. match goal with A : Forall2 _ ws _, B : Forall2 _ _ _ |- _ => destruct (IH _ _ _ _ _ A B L Q) as (-> & -> & ->) end.
  split; [reflexivity|]. split; [|reflexivity]. f_equal. cbn beta in *. congruence.
Qed.
Lemma coordinates_length {N : Num} ps : length (coordinates ps) = 3 * length ps.
Proof. induction ps as [|p ps IH]; [reflexivity|]. cbn [coordinates length]. rewrite IH. lia. Qed.
Lemma coordinates_inj {N : Num} : forall ps qs, coordinates ps = coordinates qs -> ps = qs.
Proof.
  induction ps as [|p ps IH]; intros [|q qs] H; try discriminate H; [reflexivity|]. cbn [coordinates] in H. injection H as Hx Hy Hz H. rewrite (IH _ H).
  destruct p, q. cbn in *. congruence.
Qed.
Lemma describes_prefix {N : Num} {T : Trig N} {E : Ext} parse new_source triangulate ws it ws' it' r r' :
  describes parse new_source triangulate ws it -> describes parse new_source triangulate ws' it' -> ws ++ r = ws' ++ r' -> ws = ws' /\ it = it' /\ r = r'.
Proof.
  intros D D' Q. destruct D; destruct D'; cbn [app] in Q; try discriminate Q; try (injection Q as; discriminate).
  all: match type of Q with ?a :: ?b :: ?c :: ?d :: ?e :: ?f :: _ = _ :: _ :: _ :: _ :: _ :: ?g :: _ => injection Q as -> -> Q || injection Q as -> -> -> Q end.
  all: try (match goal with A : numbers ?pa _ _, B : numbers ?pa _ _ |- _ => destruct (numbers_prefix pa _ _ _ _ _ _ A B eq_refl Q) as (-> & X & ->); injection X as; subst; auto end).
  subst n0. assert (L : length points = length points0) by (rewrite H in H2; injection H2 as H2; lia).
  destruct (numbers_prefix parse _ _ _ _ _ _ H0 H3 ltac:(rewrite !coordinates_length; congruence) H5) as (-> & X & ->).
  apply coordinates_inj in X. subst. split; [reflexivity|]. split; [|reflexivity]. congruence.
Qed.
Lemma items_unique {N : Num} {T : Trig N} {E : Ext} parse new_source triangulate wss items : Forall2 (describes parse new_source triangulate) wss items ->
  forall wss' items', Forall2 (describes parse new_source triangulate) wss' items' -> concat wss = concat wss' -> items = items'.
Proof.
  induction 1 as [|ws it wss items D _ IH]; intros wss' items' F' Q; destruct F' as [|ws' it' wss' items' D' F'].
  - reflexivity.
  - apply describes_ne in D'. cbn [concat] in Q. destruct ws'; [contradiction|discriminate Q].
  - apply describes_ne in D. cbn [concat] in Q. destruct ws; [contradiction|discriminate Q].
  - cbn [concat] in Q. destruct (describes_prefix _ _ _ _ _ _ _ _ _ D D' Q) as (_ & -> & Q'). rewrite (IH _ _ F' Q'). reflexivity.
Qed.
Theorem C40_one_reading : forall (N : Num) (T : Trig N) (E : Ext) parse new_source triangulate wss items wss' items',
  Forall2 (describes parse new_source triangulate) wss items -> Forall2 (describes parse new_source triangulate) wss' items' ->
  concat wss = concat wss' -> items = items'.
Proof. intros. eapply items_unique; eassumption. Qed.
Print Assumptions C40_one_reading.
(** an object whose modifier was not defined before it is an error *)
Theorem C41_unknown_modifier : forall (N : Num) (T : Trig N) (E : Ext) parse new_source triangulate src wss before modi ps after, parse [] = None ->
  runs src (concat wss) -> Forall2 (describes parse new_source triangulate) wss (before ++ Place modi ps :: after) ->
  ~ In modi (flat_map defined_name before) -> from_radiance_source parse new_source triangulate src = Crash.
Proof.
  intros N T E parse new_source triangulate src wss before modi ps after PN R F2 NI.
  destruct (from_radiance_source parse new_source triangulate src) as [s| |] eqn:Q; [exfalso|reflexivity|].
  - destruct (proj1 (C40_reads_the_description _ _ _ parse new_source triangulate src s PN) Q) as (ws' & wss' & items' & ops & R' & _ & -> & F' & SF & _).
    apply runs_split in R. apply runs_split in R'. assert (EQ : before ++ Place modi ps :: after = items') by (eapply items_unique; [exact F2|exact F'|congruence]).
    subst items'. assert (NI' : ~ In modi ([] ++ flat_map defined_name before)) by exact NI. revert SF NI'. generalize (@nil bytes) as names. clear. revert ops.
    induction before as [|it before IH]; intros ops names SF NI.
    + cbn [app] in SF. inversion SF; subst. match goal with K : first_definition _ _ _ |- _ => destruct K as [K _] end.
      apply NI. cbn. rewrite app_nil_r. eapply nth_error_In. eassumption.
    + cbn [app] in SF. destruct it as [name m|md qs]; cbn [flat_map defined_name app] in NI; inversion SF; subst; eapply IH; try eassumption. rewrite <- app_assoc. exact NI.
  - destruct (C39_always_answers src 0) as [_ X]. specialize (X _ _ _ parse new_source triangulate PN). contradiction.
Qed.
Print Assumptions C41_unknown_modifier.
Example C41_case : forall E : Ext, from_radiance_source (N := NumR) (T := TrigR) toy_parse toy_source toy_triangulate (lit "red sphere ball 0 0 4 1 2 3 4 void plastic red 0 0 5 1 0 0 0 0") = Crash.
Proof.
  intros E. set (n := fun k => @flit NumR (Z.of_nat k) 1).
  eapply (C41_unknown_modifier _ _ _ _ _ _ _ [[lit "red"; lit "sphere"; lit "ball"; lit "0"; lit "0"; lit "4"] ++ map list_ascii_of_string ["1"; "2"; "3"; "4"]%string;
     [lit "void"; lit "plastic"; lit "red"; lit "0"; lit "0"; lit "5"] ++ map list_ascii_of_string ["1"; "0"; "0"; "0"; "0"]%string]
     [] (lit "red") [PSphere (mkSphere (V3 (n 1) (n 2) (n 3)) (n 4))] [Define (lit "red") (Plastic (mkS (n 1) (n 0) (n 0)) (n 0) (n 0))]).
  - reflexivity.
  - apply runs_split. vm_compute. reflexivity.
  - cbn [app]. constructor; [apply d_sphere; repeat (constructor; [reflexivity|]); constructor|]. constructor; [apply d_plastic; repeat (constructor; [reflexivity|]); constructor|constructor].
  - intros [].
Qed.
Example C41_refuted_case : forall E : Ext, exists s, let n k := @flit NumR (Z.of_nat k) 1 in
  from_radiance_source (N := NumR) (T := TrigR) toy_parse toy_source toy_triangulate (lit "void plastic m 0 0 5 1 0 0 0 0 void mirror m 0 0 3 1 1 1 m sphere ball 0 0 4 1 2 3 4") = Ret s /\
  play scene_new [AddMaterial (Plastic (mkS (n 1) (n 0) (n 0)) (n 0) (n 0)); AddMaterial (Mirror (mkS (n 1) (n 1) (n 1))); AddObject 0 0 (PSphere (mkSphere (V3 (n 1) (n 2) (n 3)) (n 4)))] = Ret s.
Proof.
  intros E. set (n := fun k => @flit NumR (Z.of_nat k) 1).
  set (s0 := fst (push_material (fst (push_material scene_new (Plastic (mkS (n 1) (n 0) (n 0)) (n 0) (n 0)))) (Mirror (mkS (n 1) (n 1) (n 1))))).
  destruct (push_ok s0 0 (PSphere (mkSphere (V3 (n 1) (n 2) (n 3)) (n 4))) _ eq_refl ltac:(left; eexists; reflexivity)) as (s1 & P1 & M1). exists s1. cbv zeta.
  assert (PL : play scene_new [AddMaterial (Plastic (mkS (n 1) (n 0) (n 0)) (n 0) (n 0)); AddMaterial (Mirror (mkS (n 1) (n 1) (n 1))); AddObject 0 0 (PSphere (mkSphere (V3 (n 1) (n 2) (n 3)) (n 4)))] = Ret s1).
  { cbn [play step obind]. fold s0. rewrite P1. reflexivity. }
  split; [|exact PL].
  refine (proj1 (C41_refuted _ _ _ _ _ _ _ _ ([lit "void"; lit "plastic"; lit "m"; lit "0"; lit "0"; lit "5"] ++ map list_ascii_of_string ["1"; "0"; "0"; "0"; "0"]%string)
     ([lit "void"; lit "mirror"; lit "m"; lit "0"; lit "0"; lit "3"] ++ map list_ascii_of_string ["1"; "1"; "1"]%string)
     ([lit "m"; lit "sphere"; lit "ball"; lit "0"; lit "0"; lit "4"] ++ map list_ascii_of_string ["1"; "2"; "3"; "4"]%string) (lit "m") _ _ _ eq_refl _ _ _ _ _ PL)).
  - apply runs_split. vm_compute. reflexivity.
  - apply d_plastic; repeat (constructor; [reflexivity|]); constructor.
  - apply d_mirror; repeat (constructor; [reflexivity|]); constructor.
  - apply d_sphere; repeat (constructor; [reflexivity|]); constructor.
  - repeat (constructor; [reflexivity|]). constructor.
Qed.
