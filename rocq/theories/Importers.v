(** * Importers: model of /repo/src/from_obj.rs and /repo/src/from_simple_model.rs

    External: `load_obj` of the obj crate (its result, the vertices, normals, texture coordinates and polygons of the file, is the
    input here; positions are already widened from f32); Triangle3D::new of geometry3d is the argument [triangle_new], [None] when
    it refuses; Triangulation3D::from_polygon(..).unwrap().get_trilist() is part of the input, [None] when it fails.
    eprintln! is not modelled. *)
From Verif Require Export Text Scene.

(** ** from_obj.rs *)
(* obj::raw::object::Polygon: indices of positions, textures and normals, counted from zero *)
Inductive Polygon :=
| PolyP (l : list nat)
| PolyPT (l : list (nat * nat))
| PolyPN (l : list (nat * nat))
| PolyPTN (l : list (nat * nat * nat)).

Section Obj.
  Context {N : Num} {T : Trig N} {E : Ext}.
  (* from_obj.rs:33-37 *)
  Record ObjTriangle := mkObjTri { ot_vertices : Vec * Vec * Vec; ot_normals : option (Vec * Vec * Vec); ot_textures : option (Vec * Vec * Vec) }.
  (* `.map(|index| xs.get(index).expect(..))`, from_obj.rs:74-82, 91-100, 109-118 *)
  Fixpoint lookup_all (xs : list Vec) (is : list nat) : outcome (list Vec) :=
    match is with
    | [] => Ret []
    | i :: is => run x <- ret_opt (nth_error xs i) ;; run r <- lookup_all xs is ;; Ret (x :: r)
    end.
  Definition lookup_opt (xs : list Vec) (is : option (list nat)) : outcome (option (list Vec)) :=
    match is with None => Ret None | Some is => run r <- lookup_all xs is ;; Ret (Some r) end.
  (* `[p[x], p[y], p[z]]`, from_obj.rs:122 and 142 *)
  Definition pick (p : list Vec) (x y z : nat) : outcome (Vec * Vec * Vec) :=
    run a <- ret_opt (nth_error p x) ;; run b <- ret_opt (nth_error p y) ;; run c <- ret_opt (nth_error p z) ;; Ret (a, b, c).
  Definition pick_opt (p : option (list Vec)) (x y z : nat) : outcome (option (Vec * Vec * Vec)) :=
    match p with None => Ret None | Some p => run r <- pick p x y z ;; Ret (Some r) end.
  (* from_obj.rs:121-138 and 141-157 *)
  Definition half (p : list Vec) (n t : option (list Vec)) (x y z : nat) : outcome ObjTriangle :=
    run v <- pick p x y z ;; run n <- pick_opt n x y z ;; run t <- pick_opt t x y z ;; Ret (mkObjTri v n t).
  (* from_obj.rs:49-69 *)
  Definition polygon_parts (poly : Polygon) : list nat * option (list nat) * option (list nat) :=
    match poly with
    | PolyP pos => (pos, None, None)
    | PolyPT l => (map fst l, Some (map snd l), None)
    | PolyPN l => (map fst l, None, Some (map snd l))
    | PolyPTN l => (map (fun v => fst (fst v)) l, Some (map (fun v => snd (fst v)) l), Some (map snd l))
    end.
  (* from_obj.rs:48-159, one turn of the loop *)
  Definition process_polygon (vertices normals tex_coords : list Vec) (poly : Polygon) : outcome (list ObjTriangle) :=
    let '(p, t, n) := polygon_parts poly in
    if Nat.ltb 4 (length p) then Ret [] else
    run p <- lookup_all vertices p ;;
    run t <- lookup_opt tex_coords t ;;
    run n <- lookup_opt normals n ;;
    run bottom <- half p n t 0 1 2 ;;
    if Nat.eqb (length p) 4 then run second <- half p n t 0 2 3 ;; Ret [bottom; second]
    else Ret [bottom].
  (* from_obj.rs:40-162 *)
  Fixpoint process (vertices normals tex_coords : list Vec) (polygons : list Polygon) : outcome (list ObjTriangle) :=
    match polygons with
    | [] => Ret []
    | p :: ps => run a <- process_polygon vertices normals tex_coords p ;; run b <- process vertices normals tex_coords ps ;; Ret (a ++ b)
    end.
  Context (triangle_new : Vec -> Vec -> Vec -> option Triangle).
  (* from_obj.rs:190-201 *)
  Fixpoint push_obj_triangles (s : Scene) (front back : nat) (ts : list ObjTriangle) : outcome Scene :=
    match ts with
    | [] => Ret s
    | t :: ts =>
        let '(a, b, c) := ot_vertices t in
        match triangle_new a b c with
        | Some tri => run s <- push_object s front back (PTriangle tri) ;; push_obj_triangles s front back ts
        | None => push_obj_triangles s front back ts
        end
    end.
  (* from_obj.rs:180-202 *)
  Definition add_from_obj_source (s : Scene) (vertices normals tex_coords : list Vec) (polygons : list Polygon) (front back : nat) : outcome Scene :=
    run ts <- process vertices normals tex_coords polygons ;; push_obj_triangles s front back ts.
End Obj.

(** ** from_simple_model.rs *)
(* scene.rs:82-85: the wavelengths a scene is built for *)
Inductive Wavelengths := Solar | Visible.
Section SimpleModel.
  Context {N : Num} {T : Trig N} {E : Ext}.
  Local Open Scope num_scope.
  (* simple_model::Substance; a getter answers Err when the property was not set *)
  Inductive Substance :=
  | Normal (name : bytes) (front_solar_absorbtance solar_transmittance front_visible_reflectance visible_transmissivity : option F)
  | Gas (name : bytes).
  Definition substance_name (s : Substance) : bytes := match s with Normal n _ _ _ _ => n | Gas n => n end.
  (* a Surface or a Fenestration: the triangles of its polygon and the substances of its construction, front first *)
  Record Surface := mkSurface { su_triangles : option (list Triangle); su_layers : list Substance }.

  (* from_simple_model.rs:36-38 *)
  Definition transmittance_to_transmissivity (tau : F) : F :=
    (fsqrt (flit 8402528435 (10 ^ 10) + flit 72522239 (10 ^ 10) * (tau * tau)) - flit 9166530661 (10 ^ 10)) / flit 36261119 (10 ^ 10) / tau.
  Definition or_else (x : option F) (d : F) : F := match x with Some v => v | None => d end.
  (* from_simple_model.rs:161-218 *)
  Definition substance_to_material (s : Substance) (w : Wavelengths) : option Material :=
    match s with
    | Gas _ => None
    | Normal _ fsa st fvr vt =>
        let alpha := match w with Solar => or_else fsa (flit 7 10) | Visible => or_else fvr (flit 7 10) end in
        let rho := f1 - alpha in
        let tau := match w with
                   | Solar => match st with Some v => transmittance_to_transmissivity v | None => f0 end
                   | Visible => or_else vt f0 end in
        if tau >? f0 then Some (Glass (mkS tau tau tau) (flit 152 100))
        else Some (Plastic (mkS rho rho rho) f0 f0)
    end.
  (* from_simple_model.rs:151-158 *)
  Fixpoint modifier_position (i : nat) (names : list bytes) (item : bytes) : option nat :=
    match names with
    | [] => None
    | v :: names => if bytes_eqb v item then Some i else modifier_position (S i) names item
    end.
  (* from_simple_model.rs:134-149: [modifiers] is the reader's list, which it does not change *)
  Definition push_substance (modifiers : list bytes) (s : Scene) (sub : Substance) (w : Wavelengths) : option (nat * Scene) :=
    match modifier_position 0 modifiers (substance_name sub) with
    | Some i => Some (i, s)
    | None => match substance_to_material sub w with
              | None => None
              | Some m => let '(s, i) := push_material s m in Some (i, s)
              end
    end.
  Fixpoint push_model_triangles (s : Scene) (front back : nat) (ts : list Triangle) : outcome Scene :=
    match ts with
    | [] => Ret s
    | t :: ts => run s <- push_object s front back (PTriangle t) ;; push_model_triangles s front back ts
    end.
  (* from_simple_model.rs:49-85 and 88-124, one turn of the loops (they are the same) *)
  Definition push_surface (modifiers : list bytes) (w : Wavelengths) (s : Scene) (x : Surface) : outcome Scene :=
    match su_layers x with
    | [] => Crash
    | first :: _ =>
        run (front, s) <- ret_opt (push_substance modifiers s first w) ;;
        run (back, s) <- ret_opt (push_substance modifiers s (last (su_layers x) first) w) ;;
        run ts <- ret_opt (su_triangles x) ;;
        push_model_triangles s front back ts
    end.
  Fixpoint push_surfaces (modifiers : list bytes) (w : Wavelengths) (s : Scene) (xs : list Surface) : outcome Scene :=
    match xs with
    | [] => Ret s
    | x :: xs => run s <- push_surface modifiers w s x ;; push_surfaces modifiers w s xs
    end.
  (* from_simple_model.rs:41-128 *)
  Definition build_scene (modifiers : list bytes) (w : Wavelengths) (surfaces fenestrations : list Surface) : outcome Scene :=
    match w with
    | Visible => Crash        (* unimplemented!() *)
    | Solar =>
        run s <- push_surfaces modifiers w scene_new surfaces ;;
        push_surfaces modifiers w s fenestrations
    end.
  (* SimpleModelReader::default() *)
  Definition default_reader : list bytes := [].
End SimpleModel.
