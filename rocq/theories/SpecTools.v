(** * Vocabulary for the statements about the programs *)
From Verif Require Import Text Geometry SpecImage Tools.
Open Scope nat_scope.

(** the characters with the Unicode property White_Space, by their code points, and their UTF-8 encodings *)
Definition white_points : list N := ([9; 10; 11; 12; 13; 32; 133; 160; 5760; 8192; 8193; 8194; 8195; 8196; 8197; 8198; 8199; 8200; 8201; 8202;
  8232; 8233; 8239; 8287; 12288])%N.
Definition utf8_of (c : N) : bytes := map ascii_of_N
  (if c <? 128 then [c]
   else if c <? 2048 then [192 + c / 64; 128 + c mod 64]
   else [224 + c / 4096; 128 + c / 64 mod 64; 128 + c mod 64])%N.
Definition white_words : list bytes := map utf8_of white_points.
(** white space is a sequence of white characters; [core s t]: t is s without the white space around it *)
Definition white (l : bytes) : Prop := exists ws, Forall (fun w => In w white_words) ws /\ l = concat ws.
Definition core (s t : bytes) : Prop := exists pre post, s = pre ++ t ++ post /\ white pre /\ white post /\
  (forall w, In w white_words -> ~ begins t w) /\ (forall w r, In w white_words -> t <> r ++ w).
(** words separated by exactly one space each *)
Fixpoint spaced (ws : list bytes) : bytes :=
  match ws with
  | [] => []
  | w :: rest => match rest with [] => w | _ => w ++ SPACE :: spaced rest end
  end.
Definition no_space (w : bytes) : Prop := ~ In SPACE w.
(** a text that is these numbers *)
Definition says_numbers {A} (parse : bytes -> option A) (s : bytes) (xs : list A) : Prop :=
  exists ws, core s (spaced ws) /\ Forall no_space ws /\ Forall2 (fun w x => parse w = Some x) ws xs.
(** a sensor: a position and a direction *)
Definition sensor_text {N : Num} (parse : bytes -> option F) (s : bytes) (ray : Ray3D) : Prop :=
  exists ox oy oz dx dy dz, says_numbers parse s [ox; oy; oz; dx; dy; dz] /\
    ray = mkRay3D (V3 ox oy oz) (vnormalized (V3 dx dy dz)).
Definition sensor_line {N : Num} (parse : bytes -> option F) (s : bytes) (ray : Ray3D) : Prop := utf8 s = true /\ sensor_text parse s ray.

(** the lines of a text; the last one may lack its newline *)
Inductive typed : bytes -> list bytes -> Prop :=
| typed_end : typed [] []
| typed_last : forall l, one_line l -> l <> [] -> typed l [l]
| typed_line : forall l rest ls, one_line l -> typed rest ls -> typed (l ++ NL :: rest) (l :: ls).

(** printable ASCII, as in any printed number *)
Definition graphic (w : bytes) : Prop := Forall (fun c => (33 <= code c < 127)%N) w.
