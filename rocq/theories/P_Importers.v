(** * Properties C42, C43: OBJ files and SIMPLE models *)
From Verif Require Import NumR NumSF Text TextProofs Colour SpecColour SpecGeom TriangleProofs Material SpecOptics MaterialProofs Scene SpecScene Importers SpecImport P_Radiance.
From Coq Require Import Reals Lra Lia.
Open Scope nat_scope.

(** ** C42 - faces *)
Lemma lookup_all_spec {N : Num} xs is ps : lookup_all xs is = Ret ps <-> Forall2 (fun i p => nth_error xs i = Some p) is ps.
Proof.
  revert ps. induction is as [|i is IH]; intros ps; cbn [lookup_all].
  - split; [intros H; injection H as <-; constructor|intros H; inversion H; reflexivity].
  - split.
    + destruct (nth_error xs i) as [x|] eqn:Q; cbn [ret_opt obind]; [|discriminate]. destruct (lookup_all xs is) as [r| |]; cbn [obind]; try discriminate.
      intros H. injection H as <-. constructor; [exact Q|]. apply IH. reflexivity.
    + intros H. inversion H as [|? p ? ps' Q F2]; subst. rewrite Q. cbn [ret_opt obind]. rewrite (proj2 (IH ps') F2). reflexivity.
Qed.
Lemma lookup_exist {N : Num} xs is : exist_in xs is -> exists ps, lookup_all xs is = Ret ps /\ length ps = length is.
Proof.
  induction 1 as [|i is L _ (ps & IH & Len)]; [exists []; auto|]. cbn [lookup_all]. destruct (nth_error xs i) as [x|] eqn:Q.
  - cbn [ret_opt obind]. rewrite IH. cbn [obind]. exists (x :: ps). cbn. auto.
  - apply nth_error_None in Q. lia.
Qed.
Lemma lookup_ns {N : Num} xs is : lookup_all xs is <> Stuck.
Proof. induction is as [|i is IH]; cbn [lookup_all]; [discriminate|]. destruct (nth_error xs i); cbn [ret_opt obind]; [|discriminate]. destruct (lookup_all xs is); cbn [obind]; try discriminate. contradiction. Qed.
Lemma f2_length {A B} (P : A -> B -> Prop) l m : Forall2 P l m -> length l = length m.
Proof. induction 1; cbn; congruence. Qed.

Section Faces.
  Context {N : Num} {T : Trig N} {E : Ext}.
  Lemma parts_eq poly : let '(p, t, n) := polygon_parts poly in
    p = positions poly /\ (t = None /\ textures poly = [] \/ t = Some (textures poly) /\ length (textures poly) = length p) /\
    (n = None /\ normals_of poly = [] \/ n = Some (normals_of poly) /\ length (normals_of poly) = length p).
  Proof. destruct poly as [l|l|l|l]; cbn; rewrite ?map_length; auto 10. Qed.
  Lemma pick_ok (p : list Vec) x y z : x < length p -> y < length p -> z < length p -> exists r, pick p x y z = Ret r.
  Proof.
    intros Hx Hy Hz. unfold pick. destruct (nth_error p x) eqn:Q1; [|apply nth_error_None in Q1; lia]. destruct (nth_error p y) eqn:Q2; [|apply nth_error_None in Q2; lia].
    destruct (nth_error p z) eqn:Q3; [|apply nth_error_None in Q3; lia]. cbn. eauto.
  Qed.
  Lemma process_small vs ns ts poly pts : corners vs poly pts -> exist_in ts (textures poly) -> exist_in ns (normals_of poly) ->
    length pts = 3 \/ length pts = 4 ->
    exists out, process_polygon vs ns ts poly = Ret out /\ map ot_vertices out = fan pts.
  Proof.
    intros C X1 X2 L. unfold process_polygon. pose proof (parts_eq poly) as PE. destruct (polygon_parts poly) as [[p t] n]. destruct PE as (-> & TT & NN).
    pose proof (f2_length _ _ _ C) as LP. destruct (Nat.ltb_spec 4 (length (positions poly))) as [B|_]; [lia|].
    unfold corners in C. apply lookup_all_spec in C. rewrite C. cbn [obind].
    assert (HT : exists to, lookup_opt ts t = Ret to /\ forall q, to = Some q -> length q = length pts).
    { destruct TT as [[-> _]|[-> LT]]; [exists None; split; [reflexivity|discriminate]|]. destruct (lookup_exist _ _ X1) as (q & Q & LQ). exists (Some q).
      cbn [lookup_opt]. rewrite Q. split; [reflexivity|]. intros q' H. injection H as <-. congruence. }
    assert (HN : exists no, lookup_opt ns n = Ret no /\ forall q, no = Some q -> length q = length pts).
    { destruct NN as [[-> _]|[-> LT]]; [exists None; split; [reflexivity|discriminate]|]. destruct (lookup_exist _ _ X2) as (q & Q & LQ). exists (Some q).
      cbn [lookup_opt]. rewrite Q. split; [reflexivity|]. intros q' H. injection H as <-. congruence. }
    destruct HT as (to & -> & HT). destruct HN as (no & -> & HN). cbn [obind].
    assert (HP : forall o x y z, (forall q, o = Some q -> length q = length pts) -> x < length pts -> y < length pts -> z < length pts -> exists r, pick_opt o x y z = Ret r).
    { intros [q|] x y z Hq Hx Hy Hz; [|exists None; reflexivity]. specialize (Hq _ eq_refl). destruct (pick_ok q x y z) as [r Hr]; try lia. exists (Some r). cbn. rewrite Hr. reflexivity. }
    assert (HH : forall x y z, x < length pts -> y < length pts -> z < length pts -> exists o a b c, half pts no to x y z = Ret o /\ ot_vertices o = (a, b, c) /\ nth_error pts x = Some a /\ nth_error pts y = Some b /\ nth_error pts z = Some c).
    { intros x y z Hx Hy Hz. destruct (HP no x y z HN Hx Hy Hz) as [r1 R1]. destruct (HP to x y z HT Hx Hy Hz) as [r2 R2].
      unfold half, pick. destruct (nth_error pts x) as [a|] eqn:Q1; [|apply nth_error_None in Q1; lia]. destruct (nth_error pts y) as [b|] eqn:Q2; [|apply nth_error_None in Q2; lia].
      destruct (nth_error pts z) as [c|] eqn:Q3; [|apply nth_error_None in Q3; lia]. cbn [ret_opt obind]. rewrite R1. cbn [obind]. rewrite R2. cbn [obind]. eexists _, a, b, c. auto. }
    destruct (HH 0 1 2) as (o1 & a & b & c & -> & V1 & A1 & B1 & C1); try lia. cbn [obind].
    destruct L as [L|L]; rewrite L; cbn [Nat.eqb].
    - exists [o1]. split; [reflexivity|]. cbn [map]. rewrite V1. destruct pts as [|p0 [|p1 [|p2 [|]]]]; try discriminate L. cbn in A1, B1, C1. cbn. congruence.
    - destruct (HH 0 2 3) as (o2 & a2 & b2 & c2 & -> & V2 & A2 & B2 & C2); try lia. cbn [obind]. exists [o1; o2]. split; [reflexivity|]. cbn [map]. rewrite V1, V2.
      destruct pts as [|p0 [|p1 [|p2 [|p3 [|]]]]]; try discriminate L. cbn in A1, B1, C1, A2, B2, C2. cbn. congruence.
  Qed.
  Lemma push_obj_play tn f b ots : forall s, push_obj_triangles tn s f b ots = play s (map (AddObject f b) (map PTriangle (accepted tn (map ot_vertices ots)))).
  Proof.
    induction ots as [|o ots IH]; intros s; [reflexivity|]. cbn [push_obj_triangles map]. unfold accepted. cbn [flat_map]. fold (accepted tn (map ot_vertices ots)).
    destruct (ot_vertices o) as [[x y] z]. destruct (tn x y z) as [t|]; cbn [app map play step]; [|apply IH].
    destruct (push_object s f b (PTriangle t)); cbn [obind]; [apply IH|reflexivity|reflexivity].
  Qed.
End Faces.
Theorem C42_partial : forall (N : Num) (T : Trig N) (E : Ext) triangle_new s vs ns ts polys ptss f b,
  Forall2 (corners vs) polys ptss -> Forall (fun pts => length pts = 3 \/ length pts = 4) ptss ->
  Forall (fun poly => exist_in ts (textures poly) /\ exist_in ns (normals_of poly)) polys ->
  add_from_obj_source triangle_new s vs ns ts polys f b =
  play s (map (AddObject f b) (map PTriangle (accepted triangle_new (flat_map fan ptss)))).
Proof.
  intros N T E tn s vs ns ts polys ptss f b C L X. unfold add_from_obj_source.
  assert (P : exists out, process vs ns ts polys = Ret out /\ map ot_vertices out = flat_map fan ptss).
  { induction C as [|poly pts polys ptss C0 C IH]; [exists []; auto|]. inversion L as [|? ? L1 L2]; subst. inversion X as [|? ? [X1 X2] X3]; subst.
    destruct (IH L2 X3) as (out & Q & M). destruct (process_small vs ns ts poly pts C0 X1 X2 L1) as (o1 & Q1 & M1). exists (o1 ++ out).
    cbn [process flat_map]. rewrite Q1. cbn [obind]. rewrite Q. cbn [obind]. rewrite map_app, M1, M. auto. }
  destruct P as (out & -> & M). cbn [obind]. rewrite push_obj_play, M. reflexivity.
Qed.
Print Assumptions C42_partial.
(** a fan of an n-gon has n-2 triangles *)
Theorem C42_fan_size : forall (A : Type) (l : list A), length (fan l) = length l - 2.
Proof.
  intros A [|a l]; [reflexivity|]. cbn [fan length]. induction l as [|b l IH]; [reflexivity|]. destruct l as [|c l]; [reflexivity|].
  change (fan_from a (b :: c :: l)) with ((a, b, c) :: fan_from a (c :: l)). cbn [length] in *. rewrite IH. destruct (length l); lia.
Qed.
(** a face with more than four corners is dropped: the result is that of the file without it *)
Theorem C42_refuted : forall (N : Num) (T : Trig N) (E : Ext) triangle_new s vs ns ts before poly after f b, 4 < length (positions poly) ->
  add_from_obj_source triangle_new s vs ns ts (before ++ poly :: after) f b = add_from_obj_source triangle_new s vs ns ts (before ++ after) f b.
Proof.
  intros N T E tn s vs ns ts before poly after f b L. unfold add_from_obj_source.
  assert (P : process vs ns ts (before ++ poly :: after) = process vs ns ts (before ++ after)).
  { induction before as [|p before IH]; cbn [app process]; [|rewrite IH; reflexivity]. unfold process_polygon. pose proof (parts_eq poly) as PE.
    destruct (polygon_parts poly) as [[p t] n]. destruct PE as (-> & _). destruct (Nat.ltb_spec 4 (length (positions poly))); [|lia]. cbn [obind app].
    destruct (process vs ns ts after); reflexivity. }
  rewrite P. reflexivity.
Qed.
Print Assumptions C42_refuted.
(** a face of at most four corners that mentions a vertex that is not there, or has fewer than three corners, is an error *)
Theorem C42_malformed : forall (N : Num) (T : Trig N) (E : Ext) triangle_new s vs ns ts before poly after f b, length (positions poly) <= 4 ->
  ~ exist_in vs (positions poly) \/ length (positions poly) < 3 ->
  add_from_obj_source triangle_new s vs ns ts (before ++ poly :: after) f b = Crash.
Proof.
  intros N T E tn s vs ns ts before poly after f b L B. unfold add_from_obj_source.
  assert (NSo : forall xs is, lookup_opt xs is <> Stuck).
  { intros xs [is|]; cbn [lookup_opt]; [|discriminate]. pose proof (lookup_ns xs is). destruct (lookup_all xs is); cbn [obind]; try discriminate. contradiction. }
  assert (NSp : forall p x y z, pick p x y z <> Stuck).
  { intros p x y z. unfold pick. destruct (nth_error p x), (nth_error p y), (nth_error p z); cbn; discriminate. }
  assert (NSq : forall p x y z, pick_opt p x y z <> Stuck).
  { intros [p|] x y z; cbn [pick_opt]; [|discriminate]. pose proof (NSp p x y z). destruct (pick p x y z); cbn [obind]; try discriminate. contradiction. }
  assert (NSh : forall p n t x y z, half p n t x y z <> Stuck).
  { intros p n t x y z. unfold half. pose proof (NSp p x y z). destruct (pick p x y z); cbn [obind]; [|discriminate|contradiction].
    pose proof (NSq n x y z). destruct (pick_opt n x y z); cbn [obind]; [|discriminate|contradiction].
    pose proof (NSq t x y z). destruct (pick_opt t x y z); cbn [obind]; [discriminate|discriminate|contradiction]. }
  assert (NS : forall q, process_polygon vs ns ts q <> Stuck).
  { intros q. unfold process_polygon. destruct (polygon_parts q) as [[p t] n]. destruct (Nat.ltb _ _); [discriminate|].
    pose proof (lookup_ns vs p). destruct (lookup_all vs p) as [p'| |]; cbn [obind]; [|discriminate|contradiction].
    pose proof (NSo ts t). destruct (lookup_opt ts t) as [t'| |]; cbn [obind]; [|discriminate|contradiction].
    pose proof (NSo ns n). destruct (lookup_opt ns n) as [n'| |]; cbn [obind]; [|discriminate|contradiction].
    pose proof (NSh p' n' t' 0 1 2). destruct (half p' n' t' 0 1 2); cbn [obind]; [|discriminate|contradiction].
    destruct (Nat.eqb _ _); [|discriminate]. pose proof (NSh p' n' t' 0 2 3). destruct (half p' n' t' 0 2 3); cbn [obind]; [discriminate|discriminate|contradiction]. }
  assert (P : process vs ns ts (before ++ poly :: after) = Crash).
  { induction before as [|p before IH]; cbn [app process].
    - assert (Q : process_polygon vs ns ts poly = Crash); [|rewrite Q; reflexivity].
      specialize (NS poly). destruct (process_polygon vs ns ts poly) as [o| |] eqn:Q; [exfalso|reflexivity|contradiction].
      unfold process_polygon in Q. pose proof (parts_eq poly) as PE. destruct (polygon_parts poly) as [[p t] n]. destruct PE as (-> & _).
      destruct (Nat.ltb_spec 4 (length (positions poly))); [lia|].
      destruct (lookup_all vs (positions poly)) as [p'| |] eqn:LK; cbn [obind] in Q; try discriminate Q. apply lookup_all_spec in LK.
      destruct B as [B|B].
      + apply B. unfold exist_in. clear - LK. induction LK as [|i x is xs H _ IH]; constructor; [|exact IH]. apply nth_error_Some. congruence.
      + pose proof (f2_length _ _ _ LK) as LL. destruct (lookup_opt ts t) as [t'| |]; cbn [obind] in Q; try discriminate Q. destruct (lookup_opt ns n) as [n'| |]; cbn [obind] in Q; try discriminate Q.
        assert (X : nth_error p' 2 = None) by (apply nth_error_None; lia). unfold half, pick in Q. rewrite X in Q. destruct (nth_error p' 0), (nth_error p' 1); cbn in Q; discriminate Q.
    - rewrite IH. specialize (NS p). destruct (process_polygon vs ns ts p); cbn [obind]; [reflexivity|reflexivity|contradiction]. }
  rewrite P. reflexivity.
Qed.
Print Assumptions C42_malformed.
(** a quad and a pentagon: two triangles of the five *)
Example C42_case : forall (E : Ext) s, let pts := [pt 0 0 0; pt 1 0 0; pt 1 1 0; pt 0 1 0; pt (1/2) 3 0] in let keep a b c := Some (mkTri a b c) in
  add_from_obj_source (N := NumR) keep s pts [] [] [PolyP [0; 1; 2; 3]; PolyP [0; 1; 2; 4; 3]] 0 0 =
  play s [AddObject 0 0 (PTriangle (mkTri (pt 0 0 0) (pt 1 0 0) (pt 1 1 0))); AddObject 0 0 (PTriangle (mkTri (pt 0 0 0) (pt 1 1 0) (pt 0 1 0)))] /\
  length (flat_map fan [[0; 1; 2; 3]; [0; 1; 2; 4; 3]]) = 5.
Proof.
  intros E s pts keep. split; [|reflexivity].
  rewrite (C42_refuted _ _ _ keep s pts [] [] [PolyP [0; 1; 2; 3]] (PolyP [0; 1; 2; 4; 3]) [] 0 0) by (cbn; lia). cbn [app].
  rewrite (C42_partial _ _ _ keep s pts [] [] [PolyP [0; 1; 2; 3]] [[pt 0 0 0; pt 1 0 0; pt 1 1 0; pt 0 1 0]] 0 0).
  - reflexivity.
  - constructor; [|constructor]. unfold corners. cbn [positions]. repeat (constructor; [reflexivity|]). constructor.
  - constructor; [right; reflexivity|constructor].
  - constructor; [split; constructor|constructor].
Qed.

(** ** C43 - substances *)
Lemma push_model_play {N : Num} {T : Trig N} {E : Ext} f b ts : forall s, push_model_triangles s f b ts = play s (map (AddObject f b) (map PTriangle ts)).
Proof. induction ts as [|t ts IH]; intros s; [reflexivity|]. cbn [push_model_triangles map play step]. destruct (push_object s f b (PTriangle t)); cbn [obind]; [apply IH|reflexivity|reflexivity]. Qed.
Lemma play_app' {N : Num} {T : Trig N} {E : Ext} s a b : play s (a ++ b) = run s1 <- play s a ;; play s1 b.
Proof. revert s. induction a as [|o a IH]; intros s; [reflexivity|]. cbn [app play]. destruct (step s o); cbn [obind]; [apply IH|reflexivity|reflexivity]. Qed.
Lemma play_objects_materials {N : Num} {T : Trig N} {E : Ext} f b ps : forall s s', play s (map (AddObject f b) ps) = Ret s' -> sc_materials s' = sc_materials s.
Proof.
  induction ps as [|p ps IH]; intros s s' H; [injection H as <-; reflexivity|]. cbn [map play step] in H. destruct (push_object s f b p) as [s1| |] eqn:PO; cbn [obind] in H; try discriminate H.
  rewrite (IH _ _ H). eapply push_object_materials. exact PO.
Qed.
Lemma last_cases {A} (a : A) l : l = [] /\ last (a :: l) a = a \/ exists m b, a :: l = a :: m ++ [b] /\ last (a :: l) a = b.
Proof.
  destruct (@exists_last _ (a :: l) ltac:(discriminate)) as (m & b & Q). rewrite Q, last_last. destruct m as [|x m]; injection Q as -> ->; [left; auto|right; exists m, b; auto].
Qed.
Section Models.
  Context {N : Num} {T : Trig N} {E : Ext}.
  Lemma push_surface_spec w s x k s' : length (sc_materials s) = k ->
    push_surface default_reader w s x = Ret s' <->
    exists front back ts mf mb, is_surface x front back ts /\ substance_to_material front w = Some mf /\ substance_to_material back w = Some mb /\
      play s (AddMaterial mf :: AddMaterial mb :: map (AddObject k (S k)) (map PTriangle ts)) = Ret s'.
  Proof.
    intros K. unfold push_surface, push_substance, default_reader, is_surface. cbn [modifier_position].
    destruct (su_layers x) as [|first rest] eqn:SL.
    { split; [discriminate|]. intros (front & back & ts & mf & mb & (_ & m & [[Q _]|Q]) & _); discriminate Q. }
    assert (LB : forall front back m, first :: rest = [front] /\ back = front \/ first :: rest = front :: m ++ [back] -> front = first /\ back = last (first :: rest) first).
    { intros front back m [[Q ->]|Q]; [injection Q as -> ->; auto|]. rewrite Q. injection Q as -> ->. split; [reflexivity|]. rewrite app_comm_cons, last_last. reflexivity. }
    assert (PM : forall mf mb ts, play s (AddMaterial mf :: AddMaterial mb :: map (AddObject k (S k)) (map PTriangle ts)) =
      push_model_triangles (fst (push_material (fst (push_material s mf)) mb)) k (S k) ts).
    { intros mf mb ts. rewrite push_model_play. reflexivity. }
    assert (I1 : forall m, snd (push_material s m) = k) by (intros m; unfold push_material; cbn; rewrite app_length; cbn; lia).
    assert (I2 : forall m m', snd (push_material (fst (push_material s m)) m') = S k) by (intros m m'; unfold push_material; cbn; rewrite !app_length; cbn; lia).
    split.
    - destruct (substance_to_material first w) as [mf|] eqn:M1; cbn [ret_opt obind]; [|discriminate].
      specialize (I1 mf). destruct (push_material s mf) as [s1 i1] eqn:P1. cbn [fst snd] in *. cbn [ret_opt obind].
      destruct (substance_to_material (last (first :: rest) first) w) as [mb|] eqn:M2; cbn [ret_opt obind]; [|discriminate].
      specialize (I2 mf mb). rewrite P1 in I2. cbn [fst] in I2. destruct (push_material s1 mb) as [s2 i2] eqn:P2. cbn [fst snd] in *. cbn [ret_opt obind].
      destruct (su_triangles x) as [ts|] eqn:TS; cbn [ret_opt obind]; [|discriminate]. intros H. exists first, (last (first :: rest) first), ts, mf, mb.
      split; [split; [reflexivity|]|].
      { destruct (last_cases first rest) as [[-> ->]|(m & b & Q & ->)]; [exists []; auto|exists m; right; exact Q]. }
      split; [exact M1|]. split; [exact M2|]. rewrite PM, P1. cbn [fst]. rewrite P2. cbn [fst]. subst i1 i2. exact H.
    - intros (front & back & ts & mf & mb & (TS & m & Q) & M1 & M2 & PL). destruct (LB _ _ _ Q) as [-> ->]. rewrite M1. cbn [ret_opt obind].
      rewrite PM in PL. specialize (I1 mf). specialize (I2 mf mb). destruct (push_material s mf) as [s1 i1]. cbn [fst snd ret_opt obind] in *. rewrite M2. cbn [ret_opt obind].
      destruct (push_material s1 mb) as [s2 i2]. cbn [fst snd ret_opt obind] in *. rewrite TS. cbn [ret_opt obind]. subst i1 i2. exact PL.
  Qed.
  Lemma push_surfaces_spec w : forall xs s k s', length (sc_materials s) = k ->
    push_surfaces default_reader w s xs = Ret s' <-> exists ops, model_ops (fun sub => substance_to_material sub w) k xs ops /\ play s ops = Ret s'.
  Proof.
    induction xs as [|x xs IH]; intros s k s' K; cbn [push_surfaces].
    - split; [intros H; injection H as <-; exists []; split; [constructor|reflexivity]|intros (ops & M & PL); inversion M; subst; exact PL].
    - assert (K2 : forall s1 mf mb ts, play s (AddMaterial mf :: AddMaterial mb :: map (AddObject k (S k)) (map PTriangle ts)) = Ret s1 -> length (sc_materials s1) = S (S k)).
      { intros s1 mf mb ts H. cbn [play step obind] in H. rewrite (play_objects_materials _ _ _ _ _ H). cbn. rewrite !app_length. cbn. lia. }
      split.
      + destruct (push_surface default_reader w s x) as [s1| |] eqn:Q; cbn [obind]; try discriminate. intros H.
        apply (push_surface_spec w s x k s1 K) in Q. destruct Q as (front & back & ts & mf & mb & IS & M1 & M2 & PL).
        apply (IH s1 (S (S k)) s' (K2 _ _ _ _ PL)) in H. destruct H as (ops & MO & PL2).
        exists (AddMaterial mf :: AddMaterial mb :: map (AddObject k (S k)) (map PTriangle ts) ++ ops). split; [econstructor; eassumption|].
        rewrite !app_comm_cons, play_app', PL. exact PL2.
      + intros (ops & MO & PL). inversion MO as [|? ? ? front back ts mf mb ops' IS M1 M2 MO']; subst. rewrite !app_comm_cons, play_app' in PL.
        destruct (play s _) as [s1| |] eqn:PL1; cbn [obind] in PL; try discriminate PL.
        assert (Q : push_surface default_reader w s x = Ret s1) by (apply (push_surface_spec w s x _ s1 eq_refl); exists front, back, ts, mf, mb; auto).
        rewrite Q. cbn [obind]. apply (IH s1 _ s' (K2 _ _ _ _ PL1)). eauto.
  Qed.
End Models.
(** what is built: two new materials for every surface *)
Theorem C43_scene_partial : forall (N : Num) (T : Trig N) (E : Ext) surfaces fenestrations s,
  build_scene default_reader Solar surfaces fenestrations = Ret s <->
  exists ops, model_ops (fun sub => substance_to_material sub Solar) 0 (surfaces ++ fenestrations) ops /\ play scene_new ops = Ret s.
Proof.
  intros N T E surfaces fenestrations s. rewrite <- (push_surfaces_spec Solar (surfaces ++ fenestrations) scene_new 0 s eq_refl). unfold build_scene.
  assert (A : forall xs ys s0, push_surfaces default_reader Solar s0 (xs ++ ys) = run s1 <- push_surfaces default_reader Solar s0 xs ;; push_surfaces default_reader Solar s1 ys).
  { induction xs as [|x xs IH]; intros ys s0; [reflexivity|]. cbn [app push_surfaces]. destruct (push_surface default_reader Solar s0 x); cbn [obind]; [apply IH|reflexivity|reflexivity]. }
  rewrite A. reflexivity.
Qed.
Print Assumptions C43_scene_partial.
(** materials are not reused: their number is twice the number of surfaces, however many substances there are *)
Theorem C43_reuse_refuted : forall (N : Num) (T : Trig N) (E : Ext) surfaces fenestrations s,
  build_scene default_reader Solar surfaces fenestrations = Ret s -> length (sc_materials s) = 2 * (length surfaces + length fenestrations).
Proof.
  intros N T E surfaces fenestrations s H. pose proof (proj1 (C43_scene_partial _ _ _ _ _ _) H) as (ops & MO & PL). rewrite <- app_length.
  change 0 with (length (sc_materials scene_new)) in MO. revert MO PL. generalize (surfaces ++ fenestrations) as xs.
  enough (G : forall k xs ops, model_ops (fun sub => substance_to_material sub Solar) k xs ops -> forall s0, play s0 ops = Ret s -> length (sc_materials s) = length (sc_materials s0) + 2 * length xs).
  { intros xs MO PL. rewrite (G _ _ _ MO _ PL). reflexivity. }
  clear. induction 1 as [k|k x xs front back ts mf mb ops IS M1 M2 _ IH]; intros s0 PL; [injection PL as <-; cbn; lia|].
  rewrite !app_comm_cons, play_app' in PL. destruct (play s0 _) as [s1| |] eqn:PL1; cbn [obind] in PL; try discriminate PL.
  rewrite (IH _ PL). cbn [play step obind] in PL1. rewrite (play_objects_materials _ _ _ _ _ PL1). cbn. rewrite !app_length. cbn. lia.
Qed.
Print Assumptions C43_reuse_refuted.
(** models cannot be converted for visible light *)
Theorem C43_visible_refuted : forall (N : Num) (T : Trig N) (E : Ext) reader surfaces fenestrations, build_scene reader Visible surfaces fenestrations = Crash.
Proof. reflexivity. Qed.
(** ** C43: which optical class, and which transmissivity *)
Open Scope R_scope.
Lemma transmissivity_eq (t : R) : @transmittance_to_transmissivity NumR t =
  (sqrt (8402528435 / 10 ^ 10 + 72522239 / 10 ^ 10 * (t * t)) - 9166530661 / 10 ^ 10) / (36261119 / 10 ^ 10) / t.
Proof. unfold transmittance_to_transmissivity. cbn [fsqrt fadd fsub fmul fdiv flit NumR]. replace (IZR (Zpos (10 ^ 10))) with (10 ^ 10) by (rewrite pow_IZR; apply f_equal; reflexivity). reflexivity. Qed.
Lemma transmissivity_pos (t : R) : 0 < t -> 0 < @transmittance_to_transmissivity NumR t <-> 9053096921 / 10 ^ 20 < 72522239 / 10 ^ 10 * (t * t).
Proof.
  intros H. rewrite transmissivity_eq. set (q := sqrt _). assert (Q : q * q = 8402528435 / 10 ^ 10 + 72522239 / 10 ^ 10 * (t * t)) by (apply sqrt_def; nra).
  assert (Q0 : 0 <= q) by apply sqrt_pos. clearbody q.
  assert (E1 : (q - 9166530661 / 10 ^ 10) / (36261119 / 10 ^ 10) / t = (q - 9166530661 / 10 ^ 10) * (10 ^ 10 / 36261119 * / t)) by (field; lra).
  rewrite E1. assert (K : 0 < 10 ^ 10 / 36261119 * / t) by (apply Rmult_lt_0_compat; [lra|apply Rinv_0_lt_compat; exact H]). revert K. generalize (10 ^ 10 / 36261119 * / t). intros k K.
  split; intros P.
  - assert (0 < q - 9166530661 / 10 ^ 10) by (destruct (Rle_lt_dec (q - 9166530661 / 10 ^ 10) 0); [nra|assumption]). nra.
  - apply Rmult_lt_0_compat; [|exact K]. destruct (Rle_lt_dec (q - 9166530661 / 10 ^ 10) 0) as [L|L]; [nra|exact L].
Qed.
Lemma substance_solar nm (fsa st fvr vt : option R) : @substance_to_material NumR (Normal nm fsa st fvr vt) Solar =
  let tau := match st with Some v => @transmittance_to_transmissivity NumR v | None => 0 end in
  let rho := 1 - match fsa with Some a => a | None => 7 / 10 end in
  if Rlt_dec 0 tau then Some (Glass (@mkS NumR tau tau tau) (152 / 100)) else Some (Plastic (@mkS NumR rho rho rho) 0 0).
Proof.
  assert (Z : @f0 NumR = 0) by (unfold f0; cbn; field). assert (O : @f1 NumR = 1) by (unfold f1; cbn; field).
  unfold substance_to_material. cbv zeta. rewrite Z, O. cbn [fltb NumR]. unfold Rltb.
  destruct st as [v|]; [destruct (Rlt_dec 0 (@transmittance_to_transmissivity NumR v))|destruct (Rlt_dec 0 0)]; try reflexivity; destruct fsa; reflexivity.
Qed.
(** no transmittance given: an opaque surface that reflects what it does not absorb *)
Theorem C43_opaque : forall nm (a : R) fvr vt, @substance_to_material NumR (Normal nm (Some a) None fvr vt) Solar = Some (Plastic (@mkS NumR (1 - a) (1 - a) (1 - a)) 0 0).
Proof. intros. rewrite substance_solar. cbv zeta. destruct (Rlt_dec 0 0); [lra|reflexivity]. Qed.
Theorem C43_gas : forall nm w, @substance_to_material NumR (Gas nm) w = None.
Proof. reflexivity. Qed.
(** transmitting substances become glass of refraction index 1.52, above a transmittance of about 0.0112 percent; below it they are opaque *)
Theorem C43_glass_partial : forall nm fsa (t : R) fvr vt, 112 / 10 ^ 6 <= t ->
  exists c, @substance_to_material NumR (Normal nm fsa (Some t) fvr vt) Solar = Some (Glass c (152 / 100)).
Proof.
  intros nm fsa t fvr vt H. rewrite substance_solar. cbv zeta. destruct (Rlt_dec _ _) as [L|L]; [eexists; reflexivity|].
  exfalso. apply L. apply transmissivity_pos; [lra|]. assert (112 / 10 ^ 6 * (112 / 10 ^ 6) <= t * t) by (apply Rmult_le_compat; lra). lra.
Qed.
Theorem C43_glass_refuted : forall nm (a t : R) fvr vt, 0 < t <= 1117 / 10 ^ 7 ->
  @substance_to_material NumR (Normal nm (Some a) (Some t) fvr vt) Solar = Some (Plastic (@mkS NumR (1 - a) (1 - a) (1 - a)) 0 0).
Proof.
  intros nm a t fvr vt H. rewrite substance_solar. cbv zeta. destruct (Rlt_dec _ _) as [L|L]; [exfalso|reflexivity].
  pose proof (proj1 (transmissivity_pos t ltac:(lra)) L) as L2. assert (t * t <= 1117 / 10 ^ 7 * (1117 / 10 ^ 7)) by (apply Rmult_le_compat; lra). lra.
Qed.
Print Assumptions C43_glass_refuted.
(** the glass made from a transmittance between 1% and 90% transmits that fraction of light at normal incidence, up to 1/100000 *)
Theorem C43_transmissivity : forall nm fsa (t : R) fvr vt (n d : VecR), 1 / 100 <= t <= 9 / 10 -> unit n -> unit d -> Rabs (dot n d) = 1 ->
  exists tn : R, @substance_to_material NumR (Normal nm fsa (Some t) fvr vt) Solar = Some (Glass (@mkS NumR tn tn tn) (152 / 100)) /\
  0 < tn <= 1 /\
  forall c, let trans := snd (@glass_refl_trans NumR TrigR (@mkS NumR tn tn tn) (152 / 100) n d c) in
    all_channels (fun x : R => Rabs (x - t) <= 1 / 10 ^ 5) trans.
Proof.
  intros nm fsa t fvr vt n d H Un Ud Nd. set (x := @transmittance_to_transmissivity NumR t : R).
  assert (T2 : 1 / 100 * (1 / 100) <= t * t <= 9 / 10 * (9 / 10)) by (split; apply Rmult_le_compat; lra).
  assert (X0 : 0 < x) by (apply transmissivity_pos; lra).
  assert (Q : exists q, 0 <= q /\ q * q = 8402528435 / 10 ^ 10 + 72522239 / 10 ^ 10 * (t * t) /\ 36261119 / 10 ^ 10 * t * x = q - 9166530661 / 10 ^ 10).
  { unfold x. rewrite transmissivity_eq. set (q := sqrt _). exists q. split; [apply sqrt_pos|]. split; [apply sqrt_def; lra|]. field. lra. }
  destruct Q as (q & Q0 & Q2 & QX).
  assert (X1 : x <= 1).
  { destruct (Rle_lt_dec x 1) as [L|L]; [exact L|exfalso]. assert (t * 1 < t * x) by (apply Rmult_lt_compat_l; lra).
    assert (QQ : q > 9166530661 / 10 ^ 10 + 36261119 / 10 ^ 10 * t) by lra.
    assert ((9166530661 / 10 ^ 10 + 36261119 / 10 ^ 10 * t) * (9166530661 / 10 ^ 10 + 36261119 / 10 ^ 10 * t) < q * q) by (apply Rmult_le_0_lt_compat; lra).
    assert (t * t <= 9 / 10 * t) by (apply Rmult_le_compat_r; lra). nra. }
  exists x. split.
  { rewrite substance_solar. cbv zeta. fold x. destruct (Rlt_dec 0 x); [reflexivity|contradiction]. }
  split; [lra|]. intros c trans.
  assert (IR : in_range 0 1 (@mkS NumR x x x)) by (clearbody x; unfold in_range; cbn [sr sg sb]; clear - X0 X1; repeat split; try exact X1; left; exact X0).
  assert (P1 : Rabs (dot n d) = 1 -> pane_cos (152 / 100) (Rabs (dot n d)) = 1).
  { intros ->. unfold pane_cos. transitivity (sqrt 1); [f_equal; field|apply sqrt_1]. }
  specialize (P1 Nd). set (r := 169 / 3969).
  assert (Fe : face_e (152 / 100) (Rabs (dot n d)) = r) by (unfold face_e; rewrite P1, Nd; unfold Rsqr, r; field).
  assert (Fm : face_m (152 / 100) (Rabs (dot n d)) = r) by (unfold face_m; rewrite P1, Nd; unfold Rsqr, r; field).
  assert (XL : 1 / 10 ^ 5 <= x).
  { destruct (Rle_lt_dec (1 / 10 ^ 5) x) as [L|L]; [exact L|exfalso]. assert (t * x <= 9 / 10 * (1 / 10 ^ 5)) by (apply Rmult_le_compat; lra).
    assert (QQ : q <= 9166530661 / 10 ^ 10 + 36261119 / 10 ^ 10 * (9 / 10 * (1 / 10 ^ 5))) by lra.
    assert (q * q <= (9166530661 / 10 ^ 10 + 36261119 / 10 ^ 10 * (9 / 10 * (1 / 10 ^ 5))) * (9166530661 / 10 ^ 10 + 36261119 / 10 ^ 10 * (9 / 10 * (1 / 10 ^ 5)))) by (apply Rmult_le_compat; lra). lra. }
  assert (SM : ~ @smax NumR (@mkS NumR x x x) < 1 / IZR (Zpos (10 ^ 15))).
  { assert (@smax NumR (@mkS NumR x x x) = x) as -> by (unfold smax, fmaxb; cbn; unfold Rltb; repeat destruct (Rlt_dec _ _); reflexivity).
    replace (IZR (Zpos (10 ^ 15))) with (10 ^ 15) by (rewrite pow_IZR; apply f_equal; reflexivity). lra. }
  assert (SL : Rabs (slab_T r x - t) <= 1 / 10 ^ 5).
  { assert (TX : 0 <= t * x <= 1) by (split; [nra|]; replace 1 with (1 * 1) by ring; apply Rmult_le_compat; lra).
    assert (TX2 : 0 <= (t * x) * (t * x) <= 1) by nra.
    assert (EQ : 2 * (36261119 / 10 ^ 10) * t * ((1 - r) * (1 - r) * x + r * r * t * (x * x) - t) =
      2 * (36261119 / 10 ^ 10) * ((1 - r) * (1 - r) - 9166530661 / 10 ^ 10) * (t * x) + (2 * (36261119 / 10 ^ 10) * (r * r) - 36261119 / 10 ^ 10 * (36261119 / 10 ^ 10)) * ((t * x) * (t * x))
       + (8402528435 / 10 ^ 10 - 9166530661 / 10 ^ 10 * (9166530661 / 10 ^ 10)) + (72522239 / 10 ^ 10 - 2 * (36261119 / 10 ^ 10)) * (t * t)).
    { assert (q = 9166530661 / 10 ^ 10 + 36261119 / 10 ^ 10 * (t * x)) as -> by lra. clear - Q2. unfold r in *. nra. }
    assert (B : Rabs ((1 - r) * (1 - r) * x + r * r * t * (x * x) - t) <= 99 / 100 * (1 / 10 ^ 5)).
    { revert EQ. generalize ((1 - r) * (1 - r) * x + r * r * t * (x * x) - t). intros e EQ.
      assert (EB : - (7 / 10 ^ 10) <= 2 * (36261119 / 10 ^ 10) * t * e <= 7 / 10 ^ 10) by (rewrite EQ; unfold r; clear - TX TX2 T2; lra).
      apply Rabs_le. split; apply Rmult_le_reg_l with (2 * (36261119 / 10 ^ 10) * t); lra. }
    assert (XX : 0 <= x * x <= 1) by nra. assert (R2 : 0 <= r * r <= 1 / 500) by (unfold r; lra).
    assert (D : 99 / 100 <= 1 - x * r * (x * r) <= 1) by (replace (x * r * (x * r)) with (x * x * (r * r)) by ring; nra).
    replace (slab_T r x - t) with (((1 - r) * (1 - r) * x + r * r * t * (x * x) - t) * / (1 - x * r * (x * r))) by (unfold slab_T; field; lra).
    rewrite Rabs_mult, (Rabs_right (/ _)) by (apply Rle_ge, Rlt_le, Rinv_0_lt_compat; lra).
    apply Rmult_le_reg_r with (1 - x * r * (x * r)); [lra|]. rewrite Rmult_assoc, Rinv_l by lra. rewrite Rmult_1_r.
    apply Rle_trans with (1 := B). rewrite Rmult_comm. apply Rmult_le_compat_l; lra. }
  unfold trans. rewrite (glass_value (@mkS NumR x x x) (152 / 100) n d c) by (auto; try lra; rewrite Nd; lra). cbn [snd].
  destruct (Rlt_dec _ _) as [L|_]; [contradiction|].
  assert (AB : absorb (152 / 100) (Rabs (dot n d)) (@mkS NumR x x x) = @mkS NumR x x x).
  { unfold absorb. destruct (Rlt_dec _ _); [reflexivity|]. rewrite P1. replace (1 / 1) with 1 by field. unfold rgb. cbn [sr sg sb].
    assert (RP : Rpowf x 1 = x) by (unfold Rpowf; repeat destruct (Req_EM_T _ _); try lra; unfold Rpower; rewrite Rmult_1_l, exp_ln by lra; reflexivity). rewrite RP. reflexivity. }
  rewrite AB, Fe, Fm. unfold all_channels, half_sum, rgb. cbn [sr sg sb]. replace ((slab_T r x + slab_T r x) / 2) with (slab_T r x) by field. auto.
Qed.
Print Assumptions C43_transmissivity.
(** a room whose two walls are of one substance: four materials, all the same *)
Example C43_case : forall E : Ext, exists s, let paint := @Normal NumR (lit "paint") (Some (3 / 10)) None None None in
  let wall z := @mkSurface NumR (Some [mkTri (pt 0 0 z) (pt 1 0 z) (pt 0 1 z)]) [paint] in
  build_scene (N := NumR) default_reader Solar [wall 0] [wall 1] = Ret s /\ length (sc_materials s) = 4%nat.
Proof.
  intros E. cbv zeta.
  set (paint := @Normal NumR (lit "paint") (Some (3 / 10)) None None None). set (m := Plastic (@mkS NumR (1 - 3 / 10) (1 - 3 / 10) (1 - 3 / 10)) 0 0).
  set (t0 := mkTri (pt 0 0 0) (pt 1 0 0) (pt 0 1 0)). set (t1 := mkTri (pt 0 0 1) (pt 1 0 1) (pt 0 1 1)).
  assert (PX : forall s f b t mf mb, nth_error (sc_materials s) f = Some mf -> nth_error (sc_materials s) b = Some mb -> exists s', push_object s f b (PTriangle t) = Ret s').
  { intros s f b t mf mb H1 H2. unfold push_object. rewrite H1, H2. destruct (register_light s f b (PTriangle t) mf mb). cbn [mesh_primitive obind]. destruct (mesh_triangle t). eauto. }
  set (sa := fst (push_material (fst (push_material scene_new m)) m)).
  destruct (PX sa 0%nat 1%nat t0 m m eq_refl eq_refl) as [s1 P1]. pose proof (push_object_materials _ _ _ _ _ P1) as M1.
  set (sb := fst (push_material (fst (push_material s1 m)) m)).
  destruct (PX sb 2%nat 3%nat t1 m m) as [s2 P2]; [unfold sb; cbn; rewrite M1; reflexivity|unfold sb; cbn; rewrite M1; reflexivity|].
  exists s2.
  assert (B : build_scene (N := NumR) default_reader Solar [mkSurface (Some [t0]) [paint]] [mkSurface (Some [t1]) [paint]] = Ret s2).
  { apply (proj2 (C43_scene_partial _ _ _ _ _ _)).
    exists (AddMaterial m :: AddMaterial m :: map (AddObject 0 1) (map PTriangle [t0]) ++ AddMaterial m :: AddMaterial m :: map (AddObject 2 3) (map PTriangle [t1]) ++ []). split.
    - assert (MP : @substance_to_material NumR paint Solar = Some m) by apply C43_opaque.
      eapply (mo_surface _ 0 _ _ paint paint [t0] m m); [split; [reflexivity|exists []; left; auto]|exact MP|exact MP|].
      eapply (mo_surface _ 2 _ _ paint paint [t1] m m); [split; [reflexivity|exists []; left; auto]|exact MP|exact MP|constructor].
    - cbn [app map play step obind]. fold sa. rewrite P1. cbn [obind]. fold sb. rewrite P2. reflexivity. }
  split; [exact B|]. rewrite (C43_reuse_refuted _ _ _ _ _ _ B). reflexivity.
Qed.
Example C43_transmissivity_case : exists n d : VecR, unit n /\ unit d /\ Rabs (dot n d) = 1 /\ 1 / 100 <= 88 / 100 <= 9 / 10.
Proof. exists (pt 0 0 1), (pt 0 0 (-1)). unfold unit. split; [vunf; lra|]. split; [vunf; lra|]. split; [|lra]. replace (dot (pt 0 0 1) (pt 0 0 (-1))) with (-1) by (vunf; lra). rewrite Rabs_left; lra. Qed.
(** in IEEE arithmetic a transmittance of exactly zero is minus infinity here, and the substance is opaque *)
Example C43_zero_ieee : match @substance_to_material NumSF (Normal (lit "wall") None (Some (@f0 NumSF)) None None) Solar with Some (Plastic _ _ _) => true | _ => false end = true.
Proof. vm_compute. reflexivity. Qed.
