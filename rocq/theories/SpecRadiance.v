(** * Vocabulary for the statements about Radiance descriptions *)
From Verif Require Import Text SpecImage Scene SpecScene Radiance.
Open Scope nat_scope.

(** the words of a text: the maximal runs of bytes that are not white space *)
Inductive runs : bytes -> list bytes -> Prop :=
| runs_end gap : Forall blank gap -> runs gap []
| runs_word gap w rest ws : Forall blank gap -> w <> [] -> word w -> (rest = [] \/ exists c r, rest = c :: r /\ blank c) ->
    runs rest ws -> runs (gap ++ w ++ rest) (w :: ws).

(** [take_tokens n]: what the first n calls of consume_token return *)
Fixpoint take_tokens (n : nat) (src : bytes) (rd : Reader) : outcome (list bytes * Reader) :=
  match n with
  | O => Ret ([], rd)
  | S n => run (t, rd) <- consume_token src rd ;; run (ts, rd) <- take_tokens n src rd ;; Ret (t :: ts, rd)
  end.
Definition newlines (l : bytes) : nat := count_occ ascii_dec l NL.

Section Grammar.
  Context {N : Num} {T : Trig N} {E : Ext}.
  Context (parse : bytes -> option F) (new_source : Vec -> F -> DistantSource3D) (triangulate : list Vec -> option (list Triangle)).

  (** a definition of a material, or an object (a polygon is several triangles) bound to a modifier *)
  Inductive item :=
  | Define (name : bytes) (m : Material)
  | Place (modifier : bytes) (ps : list Primitive).

  Definition numbers (ws : list bytes) (xs : list F) : Prop := Forall2 (fun w x => parse w = Some x) ws xs.
  Fixpoint coordinates (ps : list Vec) : list F := match ps with [] => [] | p :: ps => vx p :: vy p :: vz p :: coordinates ps end.

  (** the words that describe an item *)
  Inductive describes : list bytes -> item -> Prop :=
  | d_plastic modi name ws r g b s ro : numbers ws [r; g; b; s; ro] ->
      describes ([modi; lit "plastic"; name; lit "0"; lit "0"; lit "5"] ++ ws) (Define name (Plastic (mkS r g b) s ro))
  | d_metal modi name ws r g b s ro : numbers ws [r; g; b; s; ro] ->
      describes ([modi; lit "metal"; name; lit "0"; lit "0"; lit "5"] ++ ws) (Define name (Metal (mkS r g b) s ro))
  | d_light modi name ws r g b : numbers ws [r; g; b] ->
      describes ([modi; lit "light"; name; lit "0"; lit "0"; lit "3"] ++ ws) (Define name (Light (mkS r g b)))
  | d_mirror modi name ws r g b : numbers ws [r; g; b] ->
      describes ([modi; lit "mirror"; name; lit "0"; lit "0"; lit "3"] ++ ws) (Define name (Mirror (mkS r g b)))
  | d_dielectric modi name ws r g b n h : numbers ws [r; g; b; n; h] ->
      describes ([modi; lit "dielectric"; name; lit "0"; lit "0"; lit "5"] ++ ws) (Define name (Dielectric (mkS r g b) n))
  | d_glass modi name ws r g b : numbers ws [r; g; b] ->
      describes ([modi; lit "glass"; name; lit "0"; lit "0"; lit "3"] ++ ws) (Define name (Glass (mkS r g b) (flit 152 100)))
  | d_glass_n modi name ws r g b n : numbers ws [r; g; b; n] ->
      describes ([modi; lit "glass"; name; lit "0"; lit "0"; lit "4"] ++ ws) (Define name (Glass (mkS r g b) n))
  | d_sphere modi name ws x y z r : numbers ws [x; y; z; r] ->
      describes ([modi; lit "sphere"; name; lit "0"; lit "0"; lit "4"] ++ ws) (Place modi [PSphere (mkSphere (V3 x y z) r)])
  | d_source modi name ws x y z degrees : numbers ws [x; y; z; degrees] ->
      describes ([modi; lit "source"; name; lit "0"; lit "0"; lit "4"] ++ ws)
        (Place modi [PSource (new_source (V3 x y z) (fmul degrees (fdiv fpi (flit 180 1))))])
  | d_polygon modi name n ws points ts : parse_usize n = Some (3 * length points) -> numbers ws (coordinates points) ->
      triangulate points = Some ts ->
      describes ([modi; lit "polygon"; name; lit "0"; lit "0"; n] ++ ws) (Place modi (map PTriangle ts)).

  (** the place where a name was defined first, and where it was defined last *)
  Definition first_definition (names : list bytes) (name : bytes) (i : nat) : Prop :=
    nth_error names i = Some name /\ forall j, j < i -> nth_error names j <> Some name.
  Definition latest_definition (names : list bytes) (name : bytes) (i : nat) : Prop :=
    nth_error names i = Some name /\ forall j, i < j -> nth_error names j <> Some name.
  (** the operations on a scene an item list stands for: [names] are the names of the materials defined before, and
      [resolve] says which of them a modifier means *)
  Inductive stands_for (resolve : list bytes -> bytes -> nat -> Prop) : list bytes -> list item -> list op -> Prop :=
  | sf_end names : stands_for resolve names [] []
  | sf_define names name m items ops : stands_for resolve (names ++ [name]) items ops ->
      stands_for resolve names (Define name m :: items) (AddMaterial m :: ops)
  | sf_place names modi ps i items ops : resolve names modi i -> stands_for resolve names items ops ->
      stands_for resolve names (Place modi ps :: items) (map (AddObject i i) ps ++ ops).
  (** the materials and the names an item list defines *)
  Definition defined (it : item) : list Material := match it with Define _ m => [m] | Place _ _ => [] end.
  Definition defined_name (it : item) : list bytes := match it with Define n _ => [n] | Place _ _ => [] end.
End Grammar.
