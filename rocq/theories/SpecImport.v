(** * Vocabulary for the statements about OBJ files and SIMPLE models *)
From Verif Require Import Text Scene SpecScene Importers.
Open Scope nat_scope.

(** ** faces *)
Definition positions (poly : Polygon) : list nat :=
  match poly with PolyP l => l | PolyPT l => map fst l | PolyPN l => map fst l | PolyPTN l => map (fun v => fst (fst v)) l end.
Definition textures (poly : Polygon) : list nat :=
  match poly with PolyPT l => map snd l | PolyPTN l => map (fun v => snd (fst v)) l | _ => [] end.
Definition normals_of (poly : Polygon) : list nat :=
  match poly with PolyPN l => map snd l | PolyPTN l => map snd l | _ => [] end.
Definition exist_in {A} (xs : list A) (is : list nat) : Prop := Forall (fun i => i < length xs) is.

(** the triangles of a polygon, all from its first corner: n-2 of them for n corners *)
Fixpoint fan_from {A} (a : A) (l : list A) : list (A * A * A) :=
  match l with b :: ((c :: _) as r) => (a, b, c) :: fan_from a r | _ => [] end.
Definition fan {A} (l : list A) : list (A * A * A) := match l with [] => [] | a :: r => fan_from a r end.

Section Import.
  Context {N : Num} {T : Trig N} {E : Ext}.
  (** [pts] are the corners of the face *)
  Definition corners (vertices : list Vec) (poly : Polygon) (pts : list Vec) : Prop :=
    Forall2 (fun i p => nth_error vertices i = Some p) (positions poly) pts.
  (** the triangles geometry3d accepts *)
  Definition accepted (triangle_new : Vec -> Vec -> Vec -> option Triangle) (l : list (Vec * Vec * Vec)) : list Triangle :=
    flat_map (fun '(a, b, c) => match triangle_new a b c with Some t => [t] | None => [] end) l.

  (** ** models *)
  (** front and back substance of a surface, and its triangles *)
  Definition is_surface (x : Surface) (front back : Substance) (ts : list Triangle) : Prop :=
    su_triangles x = Some ts /\ exists middle, su_layers x = [front] /\ back = front \/ su_layers x = front :: middle ++ [back].
  (** the scene such surfaces are: two materials each, shared with no other surface; [k] materials exist before *)
  Inductive model_ops (material : Substance -> option Material) : nat -> list Surface -> list op -> Prop :=
  | mo_end k : model_ops material k [] []
  | mo_surface k x xs front back ts mf mb ops : is_surface x front back ts -> material front = Some mf -> material back = Some mb ->
      model_ops material (S (S k)) xs ops ->
      model_ops material k (x :: xs) (AddMaterial mf :: AddMaterial mb :: map (AddObject k (S k)) (map PTriangle ts) ++ ops).
End Import.
