(** * SpecScene: histories of scene operations and what they should leave behind *)
From Verif Require Import Num Geometry Triangle Sphere Colour Ray Bvh Material Scene BvhProofs.

Section Histories.
  Context {N : Num} {T : Trig N} {E : Ext}.

  (** everything a client can do to a scene (the sky fields are public) *)
  Inductive op :=
  | AddMaterial (m : Material)
  | AddObject (front back : nat) (p : Primitive)
  | Build
  | Rebuild
  | SetSky (f : option (Vec -> F))
  | SetSkyColour (c : option Spectrum).
  Definition step (s : Scene) (o : op) : outcome Scene :=
    match o with
    | AddMaterial m => Ret (fst (push_material s m))
    | AddObject f b p => push_object s f b p
    | Build => build_accelerator s
    | Rebuild => rebuild_accelerator s
    | SetSky f => Ret (set_sky s f)
    | SetSkyColour c => Ret (set_sky_colour s c)
    end.
  Fixpoint play (s : Scene) (h : list op) : outcome Scene :=
    match h with
    | [] => Ret s
    | o :: rest => run s' <- step s o ;; play s' rest
    end.

  (** what a history pushed *)
  Definition materials_of (h : list op) : list Material :=
    flat_map (fun o => match o with AddMaterial m => [m] | _ => [] end) h.
  Definition objects_of (h : list op) : list (nat * nat * Primitive) :=
    flat_map (fun o => match o with AddObject f b p => [(f, b, p)] | _ => [] end) h.
  (** the triangles an object stands for, with their vertex normals *)
  Definition facets (p : Primitive) : list (Triangle * (Vec * Vec * Vec)) :=
    match p with
    | PTriangle t => let n := vnormalized (vcross (vsub (tb t) (ta t)) (vsub (tc t) (ta t))) in [(t, (n, n, n))]
    | PSphere s => combine (fst (mesh_sphere s)) (snd (mesh_sphere s))
    | PCylinder _ | PSource _ => []
    end.
  (** the records (triangle, front material, back material, normals) an object should be stored as *)
  Definition stored (o : nat * nat * Primitive) : list (Triangle * nat * nat * (Vec * Vec * Vec)) :=
    let '(f, b, p) := o in map (fun tn => (fst tn, f, b, snd tn)) (facets p).
  Definition is_light (m : Material) : Prop := exists c, m = Light c.
  (** the object has a light among its two materials *)
  Definition luminous (ms : list Material) (o : nat * nat * Primitive) : Prop :=
    let '(f, b, _) := o in exists m, (nth_error ms f = Some m \/ nth_error ms b = Some m) /\ is_light m.
  Definition distant (p : Primitive) : Prop := exists s, p = PSource s.
  (** [l] lists, in order, the members of [os] that satisfy P *)
  Inductive selected {A B} (P : A -> Prop) (f : A -> B) : list A -> list B -> Prop :=
  | sel_nil : selected P f [] []
  | sel_take a l r : P a -> selected P f l r -> selected P f (a :: l) (f a :: r)
  | sel_skip a l r : ~ P a -> selected P f l r -> selected P f (a :: l) r.
  Definition as_object (o : nat * nat * Primitive) : Object := let '(f, b, p) := o in mkObject p f b.
End Histories.
