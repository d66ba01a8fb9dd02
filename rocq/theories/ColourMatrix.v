(** * ColourMatrix: model of /repo/src/colour_matrix.rs

    The crate `matrix` is outside /repo: a matrix is its number of rows, its number of columns and its elements row by row;
    `get`/`set` outside of the matrix are errors (every caller unwraps them).  Files are lists of bytes; the file-system calls
    are not modelled; `Result<_, String>` is an option (the texts of the errors are not modelled).  Printing (`{}` of a float,
    `{:.5}` of the channels of a colour) and parsing (`str::parse::<f64>`) of floats belong to the standard library and are
    arguments. *)
From Verif Require Export Text Colour.

(** GenericMatrix<A> of the crate `matrix` *)
Record GMatrix (A : Type) := mkMat { m_rows : nat; m_cols : nat; m_data : list A }.
Arguments mkMat {A}. Arguments m_rows {A}. Arguments m_cols {A}. Arguments m_data {A}.
Definition mat_new {A} (v : A) (r c : nat) : GMatrix A := mkMat r c (repeat v (r * c)).
Definition mat_get {A} (m : GMatrix A) (r c : nat) : option A :=
  if Nat.ltb r (m_rows m) && Nat.ltb c (m_cols m) then nth_error (m_data m) (r * m_cols m + c) else None.
Fixpoint replace_nth {A} (l : list A) (n : nat) (v : A) : list A :=
  match l, n with
  | [], _ => []
  | _ :: l, O => v :: l
  | x :: l, S n => x :: replace_nth l n v
  end.
Definition mat_set {A} (m : GMatrix A) (r c : nat) (v : A) : option (GMatrix A) :=
  if Nat.ltb r (m_rows m) && Nat.ltb c (m_cols m)
  then Some (mkMat (m_rows m) (m_cols m) (replace_nth (m_data m) (r * m_cols m + c) v)) else None.

(** a `for i in 0..n` loop carrying a state *)
Fixpoint for_range {S} (i n : nat) (body : nat -> S -> outcome S) (s : S) : outcome S :=
  match n with
  | O => Ret s
  | Datatypes.S n => run s <- body i s ;; for_range (Datatypes.S i) n body s
  end.

Section ColourMatrix.
  Context {N : Num}.
  Local Open Scope num_scope.

  (* product of the crate `matrix`: element (r, c) is the sum over k, from zero, of a(r,k) * b(k,c) *)
  Definition mat_mul (a b : GMatrix F) : outcome (GMatrix F) :=
    if negb (Nat.eqb (m_cols a) (m_rows b)) then Crash else
    for_range 0 (m_rows a) (fun r m =>
      for_range 0 (m_cols b) (fun c m =>
        run v <- for_range 0 (m_cols a) (fun k v =>
                   run x <- ret_opt (mat_get a r k) ;; run y <- ret_opt (mat_get b k c) ;; Ret (v + x * y)) f0 ;;
        ret_opt (mat_set m r c v)) m) (mat_new f0 (m_rows a) (m_cols b)).

  (* colour_matrix.rs:29-34 *)
  Definition average_matrix (dc : GMatrix F) : outcome (GMatrix F) :=
    let nrows := m_rows dc in
    mat_mul (mat_new (f1 / fofZ (Z.of_nat nrows)) 1 nrows) dc.

  (* colour_matrix.rs:36-46 (radiance) and 48-58 (luminance): the same loop around a different conversion *)
  Definition convert_matrix (f : Spectrum -> F) (cm : GMatrix Spectrum) : outcome (GMatrix F) :=
    for_range 0 (m_rows cm) (fun r m =>
      for_range 0 (m_cols cm) (fun c m =>
        run v <- ret_opt (mat_get cm r c) ;; ret_opt (mat_set m r c (f v))) m) (mat_new f0 (m_rows cm) (m_cols cm)).
  Definition colour_matrix_to_radiance := convert_matrix radiance.
  Definition colour_matrix_to_luminance := convert_matrix luminance.

  (* the header written by colour_matrix.rs:67-73 and 96-102 *)
  Definition matrix_header (nrows ncols ncomp : nat) : bytes :=
    lit "#?SIMPLE" ++ [NL] ++ lit "NROWS=" ++ print_usize nrows ++ [NL] ++ lit "NCOLS=" ++ print_usize ncols ++ [NL] ++
    lit "NCOMP=" ++ print_usize ncomp ++ [NL] ++ lit "FORMAT=ascii" ++ [NL] ++ [NL].

  (* the body written by colour_matrix.rs:76-82 and 105-111 *)
  Definition matrix_body {A} (show : A -> bytes) (m : GMatrix A) : outcome bytes :=
    for_range 0 (m_rows m) (fun r out =>
      run out <- for_range 0 (m_cols m) (fun c out =>
        run v <- ret_opt (mat_get m r c) ;; Ret (out ++ show v ++ [TAB])) out ;;
      Ret (out ++ [NL])) [].

  (* colour.rs:118-122, Display of a colour; [fmt5] is `{:.5}` of a float *)
  Definition show_colour (fmt5 : F -> bytes) (s : Spectrum) : bytes :=
    fmt5 (sr s) ++ lit " " ++ fmt5 (sg s) ++ lit " " ++ fmt5 (sb s).

  (* colour_matrix.rs:60-85 *)
  Definition save_colour_matrix (fmt5 : F -> bytes) (cm : GMatrix Spectrum) : outcome bytes :=
    run body <- matrix_body (show_colour fmt5) cm ;; Ret (matrix_header (m_rows cm) (m_cols cm) 3 ++ body).
  (* colour_matrix.rs:87-114; [fmt] is `{}` of a float *)
  Definition save_matrix (fmt : F -> bytes) (m : GMatrix F) : outcome bytes :=
    run body <- matrix_body fmt m ;; Ret (matrix_header (m_rows m) (m_cols m) 1 ++ body).

  (* colour_matrix.rs:139-154 and its two copies below it: `line.split('=')` has two parts and the second is a number *)
  Definition number_field (line : bytes) : option nat :=
    match split_on (beqb "="%char) line with
    | [_; v] => parse_usize v
    | _ => None
    end.

  (* colour_matrix.rs:131-191 (ncomp = 3) and 283-343 (ncomp = 1): the loop over the header lines; None is an error.
     Some ((nrows, ncols), header_lines) otherwise *)
  Fixpoint matrix_header_loop (ncomp : nat) (ls : list bytes) (nrows ncols : option nat) (header_lines : nat)
    : option ((option nat * option nat) * nat) :=
    match ls with
    | [] => Some ((nrows, ncols), header_lines)
    | line :: ls =>
        let header_lines := S header_lines in
        if (match line with [] => true | c :: _ => is_ws c end) then Some ((nrows, ncols), header_lines)
        else if starts_with line (lit "NROWS") then
          match number_field line with
          | None => None
          | Some v => matrix_header_loop ncomp ls (Some v) ncols header_lines
          end
        else if starts_with line (lit "NCOLS") then
          match number_field line with
          | None => None
          | Some v => matrix_header_loop ncomp ls nrows (Some v) header_lines
          end
        else if starts_with line (lit "NCOMP") then
          match number_field line with
          | None => None
          | Some v => if negb (Nat.eqb v ncomp) then None else matrix_header_loop ncomp ls nrows ncols header_lines
          end
        else matrix_header_loop ncomp ls nrows ncols header_lines
    end.

  (* reading one element from [k] consecutive values: colour_matrix.rs:223-250 (k = 3) and 374-382 (k = 1) *)
  Definition colour_of_tokens (parse : bytes -> option F) (ts : list bytes) : option Spectrum :=
    match ts with
    | [a; b; c] =>
        match parse a with None => None | Some r =>
        match parse b with None => None | Some g =>
        match parse c with None => None | Some b => Some (mkS r g b) end end end
    | _ => None     (* not reachable: the number of values was checked *)
    end.
  Definition float_of_tokens (parse : bytes -> option F) (ts : list bytes) : option F :=
    match ts with [a] => parse a | _ => None end.

  (* the `while ncol < ncols` loop, colour_matrix.rs:221-262 and 372-386: outcome of an option, Ret None is an error *)
  Fixpoint read_row {A} (k : nat) (elem : list bytes -> option A) (todo nrow ncol : nat) (values : list bytes) (m : GMatrix A)
    : outcome (option (GMatrix A)) :=
    match todo with
    | O => Ret (Some m)
    | S todo =>
        match elem (firstn k values) with
        | None => Ret None
        | Some v =>
            match mat_set m nrow ncol v with
            | None => Crash
            | Some m => read_row k elem todo nrow (S ncol) (skipn k values) m
            end
        end
    end.
  (* colour_matrix.rs:210-263 and 361-387 *)
  Fixpoint read_rows {A} (k : nat) (elem : list bytes -> option A) (nrow : nat) (ls : list bytes) (m : GMatrix A)
    : outcome (option (GMatrix A)) :=
    match ls with
    | [] => Ret (Some m)
    | line :: ls =>
        let values := split_ws line in
        if negb (Nat.eqb (length values) (k * m_cols m)) then Ret None
        else
          run r <- read_row k elem (m_cols m) nrow 0 values m ;;
          match r with None => Ret None | Some m => read_rows k elem (S nrow) ls m end
    end.

  (* colour_matrix.rs:116-267 and 268-391, which differ in the kind of element (and in an early error for an empty file,
     278-280, which would be reported a few lines later anyway).  `read_to_string` fails on text that is not UTF-8. *)
  Definition read_any {A} (k : nat) (zero : A) (elem : list bytes -> option A) (content : bytes) : outcome (option (GMatrix A)) :=
    if negb (utf8 content) then Ret None else
    match matrix_header_loop k (lines content) None None 0 with
    | None => Ret None
    | Some ((nrows, ncols), header_lines) =>
        match nrows with None => Ret None | Some nrows =>
        match ncols with None => Ret None | Some ncols =>
          read_rows k elem 0 (skipn header_lines (lines content)) (mat_new zero nrows ncols)
        end end
    end.
  Definition read_colour_matrix (parse : bytes -> option F) := read_any 3 BLACK (colour_of_tokens parse).
  Definition read_matrix (parse : bytes -> option F) := read_any 1 f0 (float_of_tokens parse).
End ColourMatrix.
