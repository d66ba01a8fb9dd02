(** * Vocabulary for the statements about images *)
From Verif Require Import Text Image.

(** text made of the given lines, each ended by a newline *)
Definition text_of (ls : list bytes) : bytes := concat (map (fun l => l ++ [NL]) ls).
Definition one_line (l : bytes) : Prop := ~ In NL l.
Definition begins (l p : bytes) : Prop := exists r, l = p ++ r.
(** a header line before the size line that the reader lets through: a comment, or the right format *)
Definition no_equals (l : bytes) : Prop := ~ In "="%char l.
Definition right_format (l : bytes) : Prop := exists k, no_equals k /\ l = k ++ lit "=32-bit_rle_rgbe".
Definition harmless (l : bytes) : Prop := one_line l /\ ~ begins l (lit "-Y") /\ (begins l (lit "FORMAT") -> right_format l).
(** the size line: four fields separated by single blanks, the second and the fourth being numbers *)
Definition word (w : bytes) : Prop := Forall (fun c => is_ws c = false) w.
Definition blank (c : ascii) : Prop := is_ws c = true.
Definition size_line (l : bytes) (h w : nat) : Prop := one_line l /\ utf8 l = true /\
  exists k b1 hs b2 b3 ws, l = lit "-Y" ++ k ++ [b1] ++ hs ++ [b2] ++ lit "+X" ++ [b3] ++ ws /\
    word k /\ word hs /\ word ws /\ blank b1 /\ blank b2 /\ blank b3 /\
    utf8 hs = true /\ utf8 ws = true /\ parse_usize hs = Some h /\ parse_usize ws = Some w.

(** images that have as many pixels as their size says *)
Definition consistent {N : Num} (m : ImageBuffer) : Prop := length (img_pixels m) = (img_width m * img_height m)%nat.
(** a pixel after having been written and read back *)
Definition through_rgbe {N : Num} {T : Trig N} (p : Spectrum) : Spectrum :=
  match colour_to_rgbe (sr p) (sg p) (sb p) with
  | [r; g; b; e] => rgbe_to_colour r g b e
  | _ => p
  end.
