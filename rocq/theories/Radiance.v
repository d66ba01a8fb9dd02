(** * Radiance: model of /repo/src/from_radiance.rs, the reader of Radiance scene descriptions

    The source is a list of bytes ([nth_error] beyond its end is the slice's index panic).  `error_here`, `assert_eq!`,
    `panic!` and `unwrap` of an error are [Crash]; their messages are not modelled.  Arguments: [parse], `str::parse::<f64>`;
    [new_source], `DistantSource3D::new`; [triangulate], Loop3D::push/close, Polygon3D::new and Triangulation3D of geometry3d
    on the vertices of a polygon, [None] when one of them fails. *)
From Verif Require Export Text Scene.

(* from_radiance.rs:36-42 *)
Record Reader := mkReader { rd_index : nat; rd_done : bool; rd_modifiers : list bytes; rd_line : nat }.
Definition rd_default : Reader := mkReader 0 false [] 0.
Definition set_done (rd : Reader) : Reader := mkReader (rd_index rd) true (rd_modifiers rd) (rd_line rd).
Definition add_modifier (rd : Reader) (name : bytes) : Reader :=
  mkReader (rd_index rd) (rd_done rd) (rd_modifiers rd ++ [name]) (rd_line rd).
(* `if source.is_empty() { self.is_done = true; }`, the first lines of the three functions below *)
Definition check_empty (src : bytes) (rd : Reader) : Reader := match src with [] => set_done rd | _ => rd end.

(* from_radiance.rs:101-119 *)
Definition consume_char (src : bytes) (rd : Reader) : outcome (bool * Reader) :=
  let rd := check_empty src rd in
  if rd_done rd then Ret (false, rd) else
  match nth_error src (rd_index rd) with
  | None => Crash
  | Some c =>
      let line := if beqb c NL then S (rd_line rd) else rd_line rd in
      let index := S (rd_index rd) in
      Ret (true, mkReader index (if Nat.eqb index (length src) then true else rd_done rd) (rd_modifiers rd) line)
  end.
(* from_radiance.rs:65-80 *)
Definition consume_whitespace (src : bytes) (rd : Reader) : outcome (bool * Reader) :=
  let rd := check_empty src rd in
  if rd_done rd then Ret (false, rd) else
  match nth_error src (rd_index rd) with
  | None => Crash
  | Some c => if is_ws c then consume_char src rd else Ret (false, rd)
  end.
(* from_radiance.rs:84-98 *)
Definition consume_non_white (src : bytes) (rd : Reader) : outcome (bool * Reader) :=
  let rd := check_empty src rd in
  if rd_done rd then Ret (false, rd) else
  match nth_error src (rd_index rd) with
  | None => Crash
  | Some c => if is_ws c then Ret (false, rd) else consume_char src rd
  end.
(* `loop { if !consume(source) { break; } }` of from_radiance.rs:123-127 and 135-139 *)
Fixpoint consume_while (fuel : nat) (consume : bytes -> Reader -> outcome (bool * Reader)) (src : bytes) (rd : Reader) : outcome Reader :=
  match fuel with
  | O => Stuck
  | S k => run (more, rd) <- consume src rd ;; if more then consume_while k consume src rd else Ret rd
  end.
(* from_radiance.rs:122-128 *)
Definition reach_next_token (src : bytes) (rd : Reader) : outcome Reader := consume_while (S (length src)) consume_whitespace src rd.
(* from_radiance.rs:131-149 *)
Definition consume_token (src : bytes) (rd : Reader) : outcome (bytes * Reader) :=
  run rd <- reach_next_token src rd ;;
  let start := rd_index rd in
  run rd <- consume_while (S (length src)) consume_non_white src rd ;;
  if Nat.eqb start (rd_index rd) then Ret ([], rd)
  else
    let t := firstn (rd_index rd - start) (skipn start src) in
    if utf8 t then Ret (t, rd) else Crash.

(* from_radiance.rs:51-61 *)
Fixpoint modifier_index_from (i : nat) (names : list bytes) (name : bytes) : outcome nat :=
  match names with
  | [] => Crash
  | n :: names => if bytes_eqb name n then Ret i else modifier_index_from (S i) names name
  end.
Definition get_modifier_index (rd : Reader) (name : bytes) : outcome nat := modifier_index_from 0 (rd_modifiers rd) name.

Section Radiance.
  Context {N : Num} {T : Trig N} {E : Ext}.
  Context (parse : bytes -> option F) (new_source : Vec -> F -> DistantSource3D) (triangulate : list Vec -> option (list Triangle)).
  Local Open Scope num_scope.

  (* `let t = self.consume_token(source); assert_eq!(t, "..")` *)
  Definition expect (src : bytes) (rd : Reader) (s : bytes) : outcome Reader :=
    run (t, rd) <- consume_token src rd ;; if bytes_eqb t s then Ret rd else Crash.
  (* `self.consume_token(source).parse::<Float>().unwrap()` *)
  Definition number (src : bytes) (rd : Reader) : outcome (F * Reader) :=
    run (t, rd) <- consume_token src rd ;; run x <- ret_opt (parse t) ;; Ret (x, rd).
  (* three numbers in a row *)
  Definition three (src : bytes) (rd : Reader) : outcome (F * F * F * Reader) :=
    run (a, rd) <- number src rd ;; run (b, rd) <- number src rd ;; run (c, rd) <- number src rd ;; Ret (a, b, c, rd).
  (* the first three assertions of each consume_ function *)
  Definition expect_header (src : bytes) (rd : Reader) (n : bytes) : outcome Reader :=
    run rd <- expect src rd (lit "0") ;; run rd <- expect src rd (lit "0") ;; expect src rd n.

  (* from_radiance.rs:190-211 *)
  Definition consume_metal (src : bytes) (rd : Reader) (s : Scene) (name : bytes) : outcome (Reader * Scene) :=
    run rd <- expect_header src rd (lit "5") ;;
    run (r, g, b, rd) <- three src rd ;;
    run (specularity, rd) <- number src rd ;;
    run (roughness, rd) <- number src rd ;;
    Ret (add_modifier rd name, fst (push_material s (Metal (mkS r g b) specularity roughness))).
  (* from_radiance.rs:214-235 *)
  Definition consume_plastic (src : bytes) (rd : Reader) (s : Scene) (name : bytes) : outcome (Reader * Scene) :=
    run rd <- expect_header src rd (lit "5") ;;
    run (r, g, b, rd) <- three src rd ;;
    run (specularity, rd) <- number src rd ;;
    run (roughness, rd) <- number src rd ;;
    Ret (add_modifier rd name, fst (push_material s (Plastic (mkS r g b) specularity roughness))).
  (* from_radiance.rs:238-253 *)
  Definition consume_light (src : bytes) (rd : Reader) (s : Scene) (name : bytes) : outcome (Reader * Scene) :=
    run rd <- expect_header src rd (lit "3") ;;
    run (r, g, b, rd) <- three src rd ;;
    Ret (add_modifier rd name, fst (push_material s (Light (mkS r g b)))).
  (* from_radiance.rs:256-273 *)
  Definition consume_mirror (src : bytes) (rd : Reader) (s : Scene) (name : bytes) : outcome (Reader * Scene) :=
    run rd <- expect_header src rd (lit "3") ;;
    run (r, g, b, rd) <- three src rd ;;
    Ret (add_modifier rd name, fst (push_material s (Mirror (mkS r g b)))).
  (* from_radiance.rs:276-302 *)
  Definition consume_dielectric (src : bytes) (rd : Reader) (s : Scene) (name : bytes) : outcome (Reader * Scene) :=
    run rd <- expect_header src rd (lit "5") ;;
    run (r, g, b, rd) <- three src rd ;;
    run (refraction_index, rd) <- number src rd ;;
    run (_, rd) <- number src rd ;;
    Ret (add_modifier rd name, fst (push_material s (Dielectric (mkS r g b) refraction_index))).
  (* from_radiance.rs:305-344 *)
  Definition consume_glass (src : bytes) (rd : Reader) (s : Scene) (name : bytes) : outcome (Reader * Scene) :=
    run rd <- expect src rd (lit "0") ;;
    run rd <- expect src rd (lit "0") ;;
    run (t, rd) <- consume_token src rd ;;
    run (mat, rd) <-
      (if bytes_eqb t (lit "4") then
         run (r, g, b, rd) <- three src rd ;;
         run (refraction_index, rd) <- number src rd ;;
         Ret (Glass (mkS r g b) refraction_index, rd)
       else if bytes_eqb t (lit "3") then
         run (r, g, b, rd) <- three src rd ;;
         Ret (Glass (mkS r g b) (flit 152 100), rd)
       else Crash) ;;
    Ret (add_modifier rd name, fst (push_material s mat)).
  (* from_radiance.rs:347-363 *)
  Definition consume_sphere (src : bytes) (rd : Reader) (s : Scene) (modifier : bytes) : outcome (Reader * Scene) :=
    run rd <- expect_header src rd (lit "4") ;;
    run (x, y, z, rd) <- three src rd ;;
    run (radius, rd) <- number src rd ;;
    run i <- get_modifier_index rd modifier ;;
    run s <- push_object s i i (PSphere (mkSphere (V3 x y z) radius)) ;;
    Ret (rd, s).
  (* f64::to_radians *)
  Definition to_radians (x : F) : F := x * (fpi / flit 180 1).
  (* from_radiance.rs:366-385 *)
  Definition consume_source (src : bytes) (rd : Reader) (s : Scene) (modifier : bytes) : outcome (Reader * Scene) :=
    run rd <- expect_header src rd (lit "4") ;;
    run (x, y, z, rd) <- three src rd ;;
    run (angle, rd) <- number src rd ;;
    let angle := to_radians angle in
    run i <- get_modifier_index rd modifier ;;
    run s <- push_object s i i (PSource (new_source (V3 x y z) angle)) ;;
    Ret (rd, s).
  (* from_radiance.rs:400-406: `vertex_n` numbers, three at a time (fuel: vertex_n) *)
  Fixpoint polygon_points (fuel vertex_n : nat) (src : bytes) (rd : Reader) : outcome (list Vec * Reader) :=
    match vertex_n with
    | O => Ret ([], rd)
    | _ =>
        match fuel with
        | O => Stuck
        | S k =>
            run (x, y, z, rd) <- three src rd ;;
            run (ps, rd) <- polygon_points k (vertex_n - 3) src rd ;;
            Ret (V3 x y z :: ps, rd)
        end
    end.
  Fixpoint push_triangles (s : Scene) (i : nat) (ts : list Triangle) : outcome Scene :=
    match ts with
    | [] => Ret s
    | t :: ts => run s <- push_object s i i (PTriangle t) ;; push_triangles s i ts
    end.
  (* from_radiance.rs:388-418 *)
  Definition consume_polygon (src : bytes) (rd : Reader) (s : Scene) (modifier : bytes) : outcome (Reader * Scene) :=
    run rd <- expect src rd (lit "0") ;;
    run rd <- expect src rd (lit "0") ;;
    run (t, rd) <- consume_token src rd ;;
    run vertex_n <- ret_opt (parse_usize t) ;;
    if negb (Nat.eqb (vertex_n mod 3) 0) then Crash else
    run (points, rd) <- polygon_points vertex_n vertex_n src rd ;;
    run i <- get_modifier_index rd modifier ;;
    run triangles <- ret_opt (triangulate points) ;;
    run s <- push_triangles s i triangles ;;
    Ret (rd, s).

  (* from_radiance.rs:152-187 *)
  Definition consume_object (src : bytes) (rd : Reader) (s : Scene) : outcome (Reader * Scene) :=
    run rd <- reach_next_token src rd ;;
    if rd_done rd then Ret (rd, s) else
    run (modifier, rd) <- consume_token src rd ;;
    if rd_done rd then Crash else
    run (object_type, rd) <- consume_token src rd ;;
    if rd_done rd then Crash else
    run (name, rd) <- consume_token src rd ;;
    if rd_done rd then Crash else
    if bytes_eqb object_type (lit "plastic") then consume_plastic src rd s name
    else if bytes_eqb object_type (lit "metal") then consume_metal src rd s name
    else if bytes_eqb object_type (lit "light") then consume_light src rd s name
    else if bytes_eqb object_type (lit "mirror") then consume_mirror src rd s name
    else if bytes_eqb object_type (lit "dielectric") then consume_dielectric src rd s name
    else if bytes_eqb object_type (lit "glass") then consume_glass src rd s name
    else if bytes_eqb object_type (lit "sphere") then consume_sphere src rd s modifier
    else if bytes_eqb object_type (lit "source") then consume_source src rd s modifier
    else if bytes_eqb object_type (lit "polygon") then consume_polygon src rd s modifier
    else Crash.

  (* from_radiance.rs:435-437 *)
  Fixpoint read_objects (fuel : nat) (src : bytes) (rd : Reader) (s : Scene) : outcome Scene :=
    if rd_done rd then Ret s else
    match fuel with
    | O => Stuck
    | S k => run (rd, s) <- consume_object src rd s ;; read_objects k src rd s
    end.
  (* from_radiance.rs:430-440 *)
  Definition from_radiance_source (src : bytes) : outcome Scene := read_objects (S (length src)) src rd_default scene_new.
End Radiance.
