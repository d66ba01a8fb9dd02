(** * Vocabulary for the statements about matrices and their files *)
From Verif Require Import Text SpecImage ColourMatrix.
Open Scope nat_scope.

(** a matrix has as many elements as its size says; the one given by its rows *)
Definition sized {A} (m : GMatrix A) : Prop := length (m_data m) = m_rows m * m_cols m.
Definition of_rows {A} (ncols : nat) (rows : list (list A)) : GMatrix A := mkMat (length rows) ncols (concat rows).
Definition rectangular {A} (ncols : nat) (rows : list (list A)) : Prop := Forall (fun r => length r = ncols) rows.

(** ** matrix files *)
(** a line that does not end the header *)
Definition header_line (l : bytes) : Prop := exists c r, l = c :: r /\ is_ws c = false.
Definition blank_line (l : bytes) : Prop := ~ header_line l.
(** KEY...=number *)
Definition says (l : bytes) (n : nat) : Prop :=
  exists k v, l = k ++ "="%char :: v /\ no_equals k /\ no_equals v /\ parse_usize v = Some n.
(** the value of the last line starting with KEY *)
Definition last_says (key : bytes) (header : list bytes) (n : nat) : Prop :=
  exists before l after, header = before ++ l :: after /\ begins l key /\ says l n /\ Forall (fun l => ~ begins l key) after.
Definition header_says (ncomp : nat) (header : list bytes) (nrows ncols : nat) : Prop :=
  Forall header_line header /\
  Forall (fun l => begins l (lit "NROWS") -> exists n, says l n) header /\
  Forall (fun l => begins l (lit "NCOLS") -> exists n, says l n) header /\
  Forall (fun l => begins l (lit "NCOMP") -> says l ncomp) header /\
  last_says (lit "NROWS") header nrows /\ last_says (lit "NCOLS") header ncols.
(** the lines of a file: header, then (unless the file ends) a blank line and the rows *)
Definition file_parts (ls header body : list bytes) : Prop :=
  (ls = header /\ body = []) \/ exists b, blank_line b /\ ls = header ++ b :: body.
(** one element is written with [k] words *)
Definition row_says {A} (k : nat) (elem : list bytes -> option A) (ncols : nat) (line : bytes) (row : list A) : Prop :=
  exists groups, split_ws line = concat groups /\ Forall (fun g => length g = k) groups /\ length groups = ncols /\
    Forall2 (fun g v => elem g = Some v) groups row.

(** a printed number: a non-empty ASCII word that is parsed as [y] *)
Definition printed {A} (show : A -> bytes) (parse : bytes -> option A) (x y : A) : Prop :=
  show x <> [] /\ word (show x) /\ Forall (fun c => (code c < 128)%N) (show x) /\ parse (show x) = Some y.
