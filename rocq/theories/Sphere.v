(** * Sphere: model of mesh_sphere, /repo/src/triangle.rs:417-537 *)
From Verif Require Export Num Geometry Triangle.

Section Sphere.
  Context {N : Num} {T : Trig N}.
  Local Open Scope num_scope.

  (* geometry3d Sphere3D: the renderer reads its centre and radius.  The clipping planes of a partial sphere only
     cause a warning (triangle.rs:424-429), which is not modelled. *)
  Record Sphere3D := mkSphere { s_centre : Vec; s_radius : F }.

  Definition Tri3 : Type := (Vec * Vec * Vec)%type.
  Definition to_radians (deg : F) : F := deg * (fpi / fofZ 180).      (* f64::to_radians *)
  Definition ring_point (c : Vec) (midr z : F) (angle : Z) : Vec :=   (* triangle.rs:441-445 and 451-455 *)
    vadd (V3 (midr * fsin (to_radians (fofZ angle))) (midr * fcos (to_radians (fofZ angle))) z) c.

  (* triangle.rs:432-486: the twenty initial triangles; [mt i], [mb i] are midtop[i], midbottom[i] *)
  Definition base_triangles (top bottom : Vec) (mt mb : nat -> Vec) : list Tri3 :=
    [ (mt 0, mt 4, top); (mt 4, mt 3, top); (mt 3, mt 2, top); (mt 2, mt 1, top); (mt 1, mt 0, top);
      (mb 0, mb 1, bottom); (mb 1, mb 2, bottom); (mb 2, mb 3, bottom); (mb 3, mb 4, bottom); (mb 4, mb 0, bottom);
      (mt 4, mt 0, mb 0); (mt 0, mt 1, mb 1); (mt 1, mt 2, mb 2); (mt 2, mt 3, mb 3); (mt 3, mt 4, mb 4);
      (mb 1, mb 0, mt 0); (mb 2, mb 1, mt 1); (mb 3, mb 2, mt 2); (mb 4, mb 3, mt 3); (mb 0, mb 4, mt 4) ]%nat.
  Definition icosahedron (c : Vec) (r : F) : list Tri3 :=
    let midtop := r * fcos (to_radians (fofZ 60)) in
    let midr := r * fsin (to_radians (fofZ 60)) in
    let midbottom := - midtop in
    base_triangles (vadd (V3 f0 f0 r) c) (vadd (V3 f0 f0 (- r)) c)
      (fun i => ring_point c midr midtop (36 * (2 * Z.of_nat i + 1)))
      (fun i => ring_point c midr midbottom (72 * Z.of_nat i)).

  (* triangle.rs:493-500: midpoint of a side, pushed out to the sphere *)
  Definition midpoint (centre : Vec) (r : F) (a b : Vec) : Vec :=
    let m := vdivs (vadd a b) f2 in
    vadd centre (vscale (vnormalized (vsub m centre)) r).
  (* triangle.rs:503-508: the replacement of triangle (a, b, c) and the three appended ones *)
  Definition first_child (centre : Vec) (r : F) (t : Tri3) : Tri3 :=
    let '(a, b, c) := t in (a, midpoint centre r a b, midpoint centre r a c).
  Definition other_children (centre : Vec) (r : F) (t : Tri3) : list Tri3 :=
    let '(a, b, c) := t in
    let ab := midpoint centre r a b in
    let ac := midpoint centre r a c in
    let bc := midpoint centre r b c in
    [(ab, b, bc); (bc, c, ac); (ab, bc, ac)].
  Fixpoint set_nth {A} (i : nat) (x : A) (l : list A) : list A :=
    match l, i with
    | [], _ => []
    | _ :: l', O => x :: l'
    | y :: l', S i' => y :: set_nth i' x l'
    end.
  (* triangle.rs:490-511: `for i in 0..n` over the original length, updating in place and pushing at the back *)
  Definition refine_step (centre : Vec) (r : F) (ts : list Tri3) (i : nat) : list Tri3 :=
    match nth_error ts i with
    | Some t => set_nth i (first_child centre r t) ts ++ other_children centre r t
    | None => ts          (* triangles[i] with i < n is always in range *)
    end.
  Definition refine (centre : Vec) (r : F) (ts : list Tri3) : list Tri3 :=
    fold_left (refine_step centre r) (seq 0 (length ts)) ts.
  (* triangle.rs:513-515 *)
  Fixpoint refinements (k : nat) (centre : Vec) (r : F) (ts : list Tri3) : list Tri3 :=
    match k with O => ts | S k' => refinements k' centre r (refine centre r ts) end.

  (* triangle.rs:518-537 *)
  Definition vertex_normals (centre : Vec) (t : Tri3) : Vec * Vec * Vec :=
    let '(a, b, c) := t in
    (vnormalized (vsub a centre), vnormalized (vsub b centre), vnormalized (vsub c centre)).
  Definition to_triangle (t : Tri3) : Triangle := let '(a, b, c) := t in mkTri a b c.
  Definition mesh_sphere_at (n_refinements : nat) (s : Sphere3D) : list Triangle * list (Vec * Vec * Vec) :=
    let ts := refinements n_refinements (s_centre s) (s_radius s) (icosahedron (s_centre s) (s_radius s)) in
    (map to_triangle ts, map (vertex_normals (s_centre s)) ts).
  Definition mesh_sphere := mesh_sphere_at 5.                         (* N_REFINEMENTS, triangle.rs:418 *)
End Sphere.
