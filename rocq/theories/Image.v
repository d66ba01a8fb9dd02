(** * Image: model of /repo/src/image.rs

    A file is its list of bytes; the file-system calls (`File::create`, `read`, `write_all`) are not modelled.
    `Result<_, String>` is an option: the text of error messages is not modelled. *)
From Verif Require Export Text Colour Colourmap ColourTables SpecColour.
From Verif Require Import Camera.

Section Image.
  Context {N : Num} {T : Trig N}.
  Local Open Scope num_scope.

  (* f64::floor, as an integer and as a float.  Numbers beyond 2^1100 (there are none in f64) would saturate. *)
  Definition floorZ (x : F) : Z :=
    let t := ftrunc (- 2 ^ 1100) (2 ^ 1100) x in if x <? fofZ t then (t - 1)%Z else t.
  Definition ffloor (x : F) : F := if feqb x x then fofZ (floorZ x) else x.   (* the floor of NaN is NaN *)
  (* f64::log2, f64::exp2, f64::log10 and f64::powi, through the natural logarithm and the power function *)
  Definition flog2 (x : F) : F := fln x / fln f2.
  Definition flog10 (x : F) : F := fln x / fln (flit 10 1).
  Definition fexp2 (x : F) : F := fpow f2 x.
  (* f64::signum of a number that is not zero *)
  Definition fsignum (x : F) : F := if x <? f0 then fneg f1 else f1.
  (* f64::max, image.rs:306,363 *)
  Definition fmax (a b : F) : F := if a <? b then b else a.
  Definition sat_u8 (x : F) : Z := ftrunc 0 255 x.                  (* float `as u8` *)
  Definition sat_i32 (x : F) : Z := ftrunc (- 2 ^ 31) (2 ^ 31 - 1) x.  (* float `as i32` *)

  (* image.rs:39-48 *)
  Definition rusty_frexp (s : F) : F * Z :=
    if feqb f0 s then (s, 0%Z) else
    let lg := flog2 (fabs s) in
    let x := fexp2 (lg - ffloor lg - f1) in
    let exp := ffloor lg + f1 in
    (fsignum s * x, sat_i32 exp).

  (* image.rs:51-53 *)
  Definition rusty_ldexp (x : F) (n : Z) : F := x * fexp2 (fofZ n).

  (* image.rs:55-79, without the two debug assertions of lines 72-73; `(e + 128) as u8` wraps (byte_of) *)
  Definition colour_to_rgbe (red green blue : F) : bytes :=
    let v := red in
    let v := if green >? v then green else v in
    let v := if blue >? v then blue else v in
    if v <? flit 1 (10 ^ 19) then [byte_of 0; byte_of 0; byte_of 0; byte_of 0]
    else
      let '(mantissa, e) := rusty_frexp v in
      let mantissa := mantissa * (flit 256 1 / v) in
      let r := sat_u8 (ffloor (red * mantissa)) in
      let g := sat_u8 (ffloor (green * mantissa)) in
      let b := sat_u8 (ffloor (blue * mantissa)) in
      [byte_of r; byte_of g; byte_of b; byte_of (e + 128)].

  (* image.rs:81-93 *)
  Definition rgbe_to_colour (r g b e : byte) : Spectrum :=
    if Z.eqb (byte_val e) 0 then BLACK
    else
      let n := (byte_val e - (128 + 8))%Z in
      let f := rusty_ldexp f1 n in
      mkS (fofZ (byte_val r) * f) (fofZ (byte_val g) * f) (fofZ (byte_val b) * f).

  (* image.rs:98-106 *)
  Record ImageBuffer := mkImage { img_width : nat; img_height : nat; img_pixels : list Spectrum }.

  (* image.rs:116-124: `self.pixels[y * self.width + x]` *)
  Definition img_index (m : ImageBuffer) (x y : nat) : outcome Spectrum :=
    ret_opt (nth_error (img_pixels m) (y * img_width m + x)).
  (* image.rs:108-114: `img[(x, y)] = c` *)
  Definition img_set (m : ImageBuffer) (x y : nat) (c : Spectrum) : outcome ImageBuffer :=
    let i := (y * img_width m + x)%nat in
    if Nat.ltb i (length (img_pixels m))
    then Ret (mkImage (img_width m) (img_height m) (firstn i (img_pixels m) ++ c :: skipn (S i) (img_pixels m)))
    else Crash.

  (* image.rs:128-134 *)
  Definition img_new (w h : nat) : ImageBuffer := mkImage w h (repeat BLACK (w * h)).
  (* image.rs:158-171 *)
  Definition from_pixels (w h : nat) (pixels : list Spectrum) : outcome ImageBuffer :=
    if negb (Nat.eqb (length pixels) (w * h)) then Crash else Ret (mkImage w h pixels).
  (* image.rs:137-155 *)
  Definition img_diff (a b : ImageBuffer) : outcome (option ImageBuffer) :=
    if negb (Nat.eqb (img_width a) (img_width b) && Nat.eqb (img_height a) (img_height b)) then Ret None
    else
      let pixels := map (fun p => gray (fabs (radiance (fst p) - radiance (snd p)))) (combine (img_pixels a) (img_pixels b)) in
      run i <- from_pixels (img_width a) (img_height a) pixels ;; Ret (Some i).

  (* image.rs:174-191 *)
  Definition save_hdre (m : ImageBuffer) : bytes :=
    lit "#?RGBE" ++ [NL] ++ lit "FORMAT=32-bit_rle_rgbe" ++ [NL; NL] ++
    (lit "-Y " ++ print_usize (img_height m) ++ lit " +X " ++ print_usize (img_width m) ++ [NL]) ++
    concat (map (fun p => colour_to_rgbe (sr p) (sg p) (sb p)) (img_pixels m)).

  (* image.rs:277-283: chunks_exact(4), a shorter last chunk is ignored *)
  Fixpoint read_body (l : bytes) : list Spectrum :=
    match l with
    | r :: g :: b :: e :: l => rgbe_to_colour r g b e :: read_body l
    | _ => []
    end.

  (* image.rs:219-248: the size line; None is an error, Some (height, width) *)
  Definition read_size (line : bytes) : outcome (option (nat * nat)) :=
    if negb (utf8 line) then Crash else                              (* :221, evaluated before the checks *)
    match split_on is_ws line with
    | [_; t1; t2; t3] =>
        if negb (bytes_eqb t2 (lit "+X")) then Ret None
        else if negb (utf8 t1) then Crash
        else match parse_usize t1 with
             | None => Ret None
             | Some h =>
                 if negb (utf8 t3) then Crash
                 else match parse_usize t3 with None => Ret None | Some w => Ret (Some (h, w)) end
             end
    | _ => Ret None
    end.

  (* image.rs:250-270: the format line; true when accepted *)
  Definition read_format (line : bytes) : outcome bool :=
    match split_on (beqb "="%char) line with
    | [_; t1] => if bytes_eqb t1 (lit "32-bit_rle_rgbe") then Ret true
                 else if negb (utf8 t1) then Crash else Ret false
    | _ => if negb (utf8 line) then Crash else Ret false
    end.

  (* image.rs:210-271: the loop over header lines; every iteration removes at least one byte *)
  Fixpoint read_header (fuel : nat) (content : bytes) : outcome (option ((nat * nat) * bytes)) :=
    match fuel with
    | O => Stuck
    | S k =>
        match cut_line content with
        | None => Ret None
        | Some (line, content) =>
            if starts_with line (lit "-Y") then
              run r <- read_size line ;;
              Ret (match r with None => None | Some hw => Some (hw, content) end)
            else if starts_with line (lit "FORMAT") then
              run ok <- read_format line ;;
              if ok then read_header k content else Ret None
            else read_header k content
        end
    end.

  (* image.rs:194-291, on the content of the file *)
  Definition from_file (content : bytes) : outcome (option ImageBuffer) :=
    run r <- read_header (S (length content)) content ;;
    Ret (match r with
         | None => None
         | Some ((h, w), body) => Some (mkImage w h (read_body body))
         end).

  (** False-colour images: what is passed to the JPEG encoder is (data, width as u16, height as u16). *)
  (* f64::round (half away from zero), then `as u8`.  A negative number gives 0 either way, so its rounding does not matter. *)
  Definition round_u8 (x : F) : Z := let t := ffloor x in sat_u8 (if flit 1 2 <=? x - t then t + f1 else t).
  Definition data_of (s : Spectrum) : bytes :=
    map (fun c => byte_of (round_u8 (c * flit 256 1))) [sr s; sg s; sb s].
  Fixpoint colour_data (values : list F) (mn mx : F) (scale : list Spectrum) : res bytes :=
    match values with
    | [] => Ok_ []
    | x :: values =>
        do s <- map_linear_colour x mn mx scale ;;
        do rest <- colour_data values mn mx scale ;;
        Ok_ (data_of s ++ rest)
    end.
  Fixpoint running_max (m : F) (l : list F) : F :=
    match l with [] => m | v :: l => running_max (if v >? m then v else m) l end.

  (* image.rs:350-393: the range used by save_falsecolour *)
  Definition linear_range (mn mx : option F) (values : list F) : F * F :=
    let min_min := f0 in
    (match mn with Some v => fmax v min_min | None => min_min end,
     match mx with
     | Some v => v
     | None => let m := running_max min_min values in if m <=? min_min then f2 * min_min else m
     end).
  (* image.rs:350-415 *)
  Definition falsecolour (m : ImageBuffer) (mn mx : option F) (scale : list Spectrum) : res (bytes * Z * Z) :=
    let values := map luminance (img_pixels m) in
    let '(lo, hi) := linear_range mn mx values in
    do data <- colour_data values lo hi scale ;;
    Ok_ (data, Z.of_nat (img_width m) mod 2 ^ 16, Z.of_nat (img_height m) mod 2 ^ 16)%Z.

  (* image.rs:301-325: the range used by save_log_falsecolour, in decades *)
  Definition log_range (mn mx : option F) (values : list F) : F * F :=
    let min_min := flit 1 1000 in
    (match mn with Some v => flog10 (fmax v min_min) | None => flog10 min_min end,
     match mx with
     | Some v => flog10 v
     | None => let m := running_max min_min values in if m <=? min_min then f2 * min_min else m
     end).
  (* image.rs:294-347.  log10 of a non-positive luminance is -inf or NaN in f64; the model only speaks about images whose
     pixels have positive luminance. *)
  Definition log_falsecolour (m : ImageBuffer) (mn mx : option F) (scale : list Spectrum) : res (bytes * Z * Z) :=
    let values := map (fun p => flog10 (luminance p)) (img_pixels m) in
    let '(lo, hi) := log_range mn mx values in
    do data <- colour_data values lo hi scale ;;
    Ok_ (data, Z.of_nat (img_width m) mod 2 ^ 16, Z.of_nat (img_height m) mod 2 ^ 16)%Z.
End Image.
