(** * Scene: model of /repo/src/scene.rs (construction and queries) and of the Primitive enum
      (/repo/src/primitive.rs:31-49) *)
From Verif Require Export Num Geometry Triangle Sphere Colour Ray Bvh Material.

Section Scene.
  Context {N : Num} {T : Trig N} {E : Ext}.
  Local Open Scope num_scope.

  (* geometry3d Cylinder3D and DistantSource3D: only carried around by the scene *)
  Record Cylinder3D := mkCyl { cy_p0 : Vec; cy_p1 : Vec; cy_radius : F }.
  Record DistantSource3D := mkSource { ds_direction : Vec; ds_angle : F }.
  (* primitive.rs:31-37 *)
  Inductive Primitive :=
  | PSphere (s : Sphere3D)
  | PTriangle (t : Triangle)
  | PCylinder (c : Cylinder3D)
  | PSource (s : DistantSource3D).
  (* primitive.rs:41-48 and push_object's `ob_id == "source"` (scene.rs:277): the geometry3d identifiers *)
  Inductive PrimId := IdSphere | IdTriangle | IdCylinder | IdSource.
  Definition prim_id (p : Primitive) : PrimId :=
    match p with PSphere _ => IdSphere | PTriangle _ => IdTriangle | PCylinder _ => IdCylinder | PSource _ => IdSource end.
  Definition id_is_source (i : PrimId) : bool := match i with IdSource => true | _ => false end.

  (* scene.rs:34-40 *)
  Record Object := mkObject { ob_primitive : Primitive; ob_front : nat; ob_back : nat }.

  (* scene.rs:42-80.  [sc_arrays] gathers the four per-triangle vectors, which BoundingVolumeTree::new reorders
     together (bvh.rs:412-449).  The accelerator is its node array. *)
  Record Scene := mkScene {
    sc_arrays : Arrays;
    sc_materials : list Material;
    sc_lights : list Object;
    sc_distant_lights : list Object;
    sc_accelerator : option (list FlatNode);
    sc_sky_colour : option Spectrum;
    sc_sky : option (Vec -> F)
  }.
  Definition set_arrays (s : Scene) (a : Arrays) : Scene :=
    mkScene a (sc_materials s) (sc_lights s) (sc_distant_lights s) (sc_accelerator s) (sc_sky_colour s) (sc_sky s).
  Definition set_materials (s : Scene) (m : list Material) : Scene :=
    mkScene (sc_arrays s) m (sc_lights s) (sc_distant_lights s) (sc_accelerator s) (sc_sky_colour s) (sc_sky s).
  Definition set_lights (s : Scene) (l : list Object) : Scene :=
    mkScene (sc_arrays s) (sc_materials s) l (sc_distant_lights s) (sc_accelerator s) (sc_sky_colour s) (sc_sky s).
  Definition set_distant_lights (s : Scene) (l : list Object) : Scene :=
    mkScene (sc_arrays s) (sc_materials s) (sc_lights s) l (sc_accelerator s) (sc_sky_colour s) (sc_sky s).
  Definition set_accelerator (s : Scene) (a : option (list FlatNode)) : Scene :=
    mkScene (sc_arrays s) (sc_materials s) (sc_lights s) (sc_distant_lights s) a (sc_sky_colour s) (sc_sky s).
  Definition set_sky (s : Scene) (f : option (Vec -> F)) : Scene :=
    mkScene (sc_arrays s) (sc_materials s) (sc_lights s) (sc_distant_lights s) (sc_accelerator s) (sc_sky_colour s) f.
  Definition set_sky_colour (s : Scene) (c : option Spectrum) : Scene :=
    mkScene (sc_arrays s) (sc_materials s) (sc_lights s) (sc_distant_lights s) (sc_accelerator s) c (sc_sky s).

  (* scene.rs:97-100 *)
  Definition scene_new : Scene := mkScene empty_arrays [] [] [] None None None.

  (* BoundingVolumeTree::new(self), bvh.rs:412-449.  The recursion depth is at most the number of triangles (C02),
     hence the fuel. *)
  Definition install_accelerator (s : Scene) : outcome Scene :=
    run (nodes, arrays) <- bvh_new (length (a_tri (sc_arrays s))) (sc_arrays s) ;;
    Ret (set_accelerator (set_arrays s arrays) (Some nodes)).
  (* scene.rs:188-193 *)
  Definition build_accelerator (s : Scene) : outcome Scene :=
    match sc_accelerator s with Some _ => Crash | None => install_accelerator s end.
  (* scene.rs:196-198 *)
  Definition rebuild_accelerator (s : Scene) : outcome Scene := install_accelerator s.
  (* scene.rs:203-205 *)
  Definition count_all_lights (s : Scene) : nat := length (sc_lights s) + length (sc_distant_lights s).
  (* scene.rs:210-216 *)
  Definition cast_ray (fuel : nat) (s : Scene) (r : Ray) (aux : list Z) : outcome (option Z * Ray * list Z) :=
    match sc_accelerator s with
    | Some nodes => intersect fuel nodes (a_tri (sc_arrays s)) r aux
    | None => Crash
    end.
  (* scene.rs:219-230 *)
  Definition scene_unobstructed_distance (fuel : nat) (s : Scene) (ray : Ray3D) (d2 : F) (aux : list Z) : outcome (bool * list Z) :=
    match sc_accelerator s with
    | Some nodes => unobstructed_distance fuel nodes (a_tri (sc_arrays s)) ray d2 aux
    | None => Crash
    end.

  (* scene.rs:234-238 *)
  Definition push_material (s : Scene) (m : Material) : Scene * nat :=
    let s' := set_materials s (sc_materials s ++ [m]) in
    (s', (length (sc_materials s') - 1)%nat).

  (* scene.rs:255-283 *)
  Definition register_light (s : Scene) (front back : nat) (p : Primitive) (mf mb : Material) : Scene * bool :=
    if emits_direct_light mf || emits_direct_light mb then
      let object := mkObject p front back in
      if id_is_source (prim_id p) then (set_distant_lights s (sc_distant_lights s ++ [object]), true)
      else (set_lights s (sc_lights s ++ [object]), true)
    else (s, false).
  (* scene.rs:284-293 *)
  Definition mesh_primitive (p : Primitive) (is_light : bool) : outcome (list Triangle * list (Vec * Vec * Vec)) :=
    match p with
    | PTriangle t => Ret (mesh_triangle t)
    | PSphere s => Ret (mesh_sphere s)
    | _ => if is_light then Ret ([], []) else Crash
    end.
  (* scene.rs:245-302 *)
  Definition push_object (s : Scene) (front back : nat) (p : Primitive) : outcome Scene :=
    match nth_error (sc_materials s) front, nth_error (sc_materials s) back with
    | Some mf, Some mb =>
        let '(s1, is_light) := register_light s front back p mf mb in
        run (triangles, normals) <- mesh_primitive p is_light ;;
        let additional := length triangles in
        let a := sc_arrays s1 in
        Ret (set_arrays s1 (mkArr (a_tri a ++ triangles) (a_front a ++ repeat front additional)
                                  (a_back a ++ repeat back additional) (a_norm a ++ normals)))
    | _, _ => Crash       (* scene.rs:251-257: a material index out of bounds *)
    end.
End Scene.
