(** * Text: byte strings and the functions of the Rust standard library used on them

    `&[u8]`, `&str` and `String` are lists of bytes; a byte is an [ascii] (8 bits).  The functions below model the
    documented behaviour of Rust's standard library, which is outside /repo; each comment says which code uses it. *)
From Coq Require Export Ascii String.
From Verif Require Export Num.
Open Scope list_scope.
Open Scope nat_scope.

Notation byte := ascii (only parsing).
Definition bytes := list byte.
Notation lit s := (list_ascii_of_string s%string).
Definition code (c : byte) : N := N_of_ascii c.
Definition byte_of (n : Z) : byte := ascii_of_N (Z.to_N (n mod 256)).      (* integer `as u8`: wraps *)
Definition byte_val (c : byte) : Z := Z.of_N (code c).
Definition NL : byte := "010"%char.
Definition CR : byte := "013"%char.
Definition TAB : byte := "009"%char.

Definition beqb (a b : byte) : bool := Ascii.eqb a b.
Fixpoint bytes_eqb (a b : bytes) : bool :=
  match a, b with
  | [], [] => true
  | x :: a, y :: b => beqb x y && bytes_eqb a b
  | _, _ => false
  end.

(** u8::is_ascii_whitespace: space, \t, \n, \x0C, \r (image.rs:227, from_radiance.rs:75,92, colour_matrix.rs:133,213) *)
Definition is_ws (c : byte) : bool :=
  match code c with 32%N | 9%N | 10%N | 12%N | 13%N => true | _ => false end.

(** slice/str starts_with (image.rs:219,250; colour_matrix.rs) *)
Fixpoint starts_with (l p : bytes) : bool :=
  match p, l with
  | [], _ => true
  | x :: p, y :: l => beqb x y && starts_with l p
  | _, [] => false
  end.

(** slice::split(pred) (image.rs:226-229,252; colour_matrix.rs:138): always at least one piece *)
Fixpoint split_on (p : byte -> bool) (l : bytes) : list bytes :=
  match l with
  | [] => [[]]
  | c :: l =>
      if p c then [] :: split_on p l
      else match split_on p l with
           | [] => [[c]]                    (* impossible *)
           | w :: ws => (c :: w) :: ws
           end
  end.
Definition nonempty (w : bytes) : bool := match w with [] => false | _ => true end.
(** str::split_ascii_whitespace (colour_matrix.rs:213) *)
Definition split_ws (l : bytes) : list bytes := filter nonempty (split_on is_ws l).

(** the part before the first newline and the rest after it: `position(|u| u == '\n')` and the two slices (image.rs:211-217) *)
Fixpoint cut_line (l : bytes) : option (bytes * bytes) :=
  match l with
  | [] => None
  | c :: l => if beqb c NL then Some ([], l)
              else match cut_line l with Some (a, b) => Some (c :: a, b) | None => None end
  end.

(** str::lines (colour_matrix.rs:130,211): split at '\n', the last piece dropped if empty, a final '\r' of each line removed
    (of a last line without '\n' it is kept) *)
Fixpoint strip_cr (l : bytes) : bytes :=
  match l with
  | [] => []
  | [c] => if beqb c CR then [] else [c]
  | c :: l => c :: strip_cr l
  end.
Fixpoint lines_of (pieces : list bytes) : list bytes :=
  match pieces with
  | [] => []
  | [w] => match w with [] => [] | _ => [w] end
  | w :: ws => strip_cr w :: lines_of ws
  end.
Definition lines (l : bytes) : list bytes := lines_of (split_on (beqb NL) l).

(** decimal digits of an unsigned integer: `format!("{}", n)` (image.rs:184; colour_matrix.rs:69-70) *)
Definition digit (n : N) : byte := ascii_of_N (48 + n).
Fixpoint dec (fuel : nat) (n : N) : bytes :=
  match fuel with
  | O => []
  | S k => (if (n <? 10)%N then [] else dec k (n / 10)) ++ [digit (n mod 10)%N]
  end.
Definition print_N (n : N) : bytes := dec (S (N.size_nat n)) n.
Definition print_usize (n : nat) : bytes := print_N (N.of_nat n).

(** str::parse::<usize>: an optional '+', at least one digit, digits only, value below 2^64 (image.rs:234,241;
    colour_matrix.rs:145,161,177; from_radiance.rs:393) *)
Definition digit_val (c : byte) : option N :=
  if ((48 <=? code c) && (code c <=? 57))%N then Some (code c - 48)%N else None.
Fixpoint parse_digits (acc : N) (l : bytes) : option N :=
  match l with
  | [] => Some acc
  | c :: l => match digit_val c with Some d => parse_digits (acc * 10 + d) l | None => None end
  end.
Definition parse_unsigned (l : bytes) : option N :=
  match l with [] => None | _ => parse_digits 0 l end.
Definition parse_usize_N (l : bytes) : option N :=
  match (match l with c :: l' => if beqb c "+"%char then parse_unsigned l' else parse_unsigned l | [] => None end) with
  | Some n => if (n <? 2 ^ 64)%N then Some n else None
  | None => None
  end.
Definition parse_usize (l : bytes) : option nat := option_map N.to_nat (parse_usize_N l).

(** std::str::from_utf8 succeeds (image.rs:221,233,240,254,263; from_radiance.rs:144): the table of well-formed byte
    sequences of the Unicode standard *)
Definition between (lo hi : N) (c : byte) : bool := ((lo <=? code c) && (code c <=? hi))%N.
Definition cont := between 128 191.
Fixpoint utf8 (l : bytes) : bool :=
  match l with
  | [] => true
  | a :: l =>
      if between 0 127 a then utf8 l else
      match l with
      | [] => false
      | b :: l =>
          if between 194 223 a then cont b && utf8 l else
          match l with
          | [] => false
          | c :: l =>
              if between 224 224 a then between 160 191 b && cont c && utf8 l
              else if between 225 236 a || between 238 239 a then cont b && cont c && utf8 l
              else if between 237 237 a then between 128 159 b && cont c && utf8 l
              else
              match l with
              | [] => false
              | d :: l =>
                  if between 240 240 a then between 144 191 b && cont c && cont d && utf8 l
                  else if between 241 243 a then cont b && cont c && cont d && utf8 l
                  else if between 244 244 a then between 128 143 b && cont c && cont d && utf8 l
                  else false
              end
          end
      end
  end.
