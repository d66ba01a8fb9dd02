(** * Tools: model of the programs of /repo/bin (spict.rs, sfluxmtx.rs, scompare.rs, sfalsecolor.rs; stimestep.rs is empty)

    A program is a function of its arguments, the files it reads and its standard input.  It ends by a panic ([Crash]), by
    `std::process::exit(1)` ([Exited]; also a text that clap rejects) or by having written its output file ([Wrote]).  Reading a file
    is a function from names to contents, None for a failure; failures to write, and the messages printed, are not modelled.  The
    splitting of the command line into arguments by clap is not modelled, the parsing of the texts of the triplets is. *)
From Verif Require Export Text Colour Geometry Ray Scene Radiance Importers ColourMatrix Image SpecColour Camera Render Daylight.

(** ** str::trim of the standard library (sfluxmtx.rs:94, spict.rs:43) *)
(* the UTF-8 encodings of the characters with the Unicode property White_Space *)
Definition white_chars : list bytes :=
  map (map ascii_of_N)
    ([[9]; [10]; [11]; [12]; [13]; [32]; [194; 133]; [194; 160]; [225; 154; 128];
      [226; 128; 128]; [226; 128; 129]; [226; 128; 130]; [226; 128; 131]; [226; 128; 132]; [226; 128; 133]; [226; 128; 134];
      [226; 128; 135]; [226; 128; 136]; [226; 128; 137]; [226; 128; 138]; [226; 128; 168]; [226; 128; 169]; [226; 128; 175];
      [226; 129; 159]; [227; 128; 128]])%N.
(* removes one of the given words at the beginning, if there is one *)
Fixpoint strip_one (ps : list bytes) (l : bytes) : option bytes :=
  match ps with
  | [] => None
  | p :: ps => if starts_with l p then Some (skipn (length p) l) else strip_one ps l
  end.
Fixpoint strip_many (fuel : nat) (ps : list bytes) (l : bytes) : bytes :=
  match fuel with
  | O => l
  | S k => match strip_one ps l with Some l => strip_many k ps l | None => l end
  end.
Definition trim_start (l : bytes) : bytes := strip_many (length l) white_chars l.
Definition trim_end (l : bytes) : bytes := rev (strip_many (length l) (map (@rev _) white_chars) (rev l)).
Definition trim (l : bytes) : bytes := trim_end (trim_start l).
(* str::ends_with *)
Definition ends_with (l p : bytes) : bool := starts_with (rev l) (rev p).
Definition SPACE : byte := " "%char.

Inductive ended (A : Type) : Type := Exited | Wrote (a : A).
Arguments Exited {A}. Arguments Wrote {A} a.

Section Tools.
  Context {N : Num} {T : Trig N} {E : Ext} {RG : Gen N} {GO : Geo}.
  (* the standard library's parser of floats, `{:.5}` and `{}`; the crates geometry3d and simple_model; the crate solar *)
  Context (parse : bytes -> option F) (fmt5 fmt : F -> bytes)
          (new_source : Vec -> F -> DistantSource3D) (triangulate : list Vec -> option (list Triangle))
          (model_from_file : bytes -> option (list Surface * list Surface)) (reinhart_new : nat -> @ReinhartSky N).
  (* the file system *)
  Context (read_file : bytes -> option bytes).

  Fixpoint parse_all (ws : list bytes) : option (list F) :=
    match ws with
    | [] => Some []
    | w :: ws => match parse w with None => None | Some x => option_map (cons x) (parse_all ws) end
    end.

  (** ** spict.rs *)
  (* spict.rs:31-38 *)
  Definition Triplet : Type := (F * F * F)%type.
  Definition show_triplet (t : Triplet) : bytes := let '(a, b, c) := t in fmt a ++ [SPACE] ++ fmt b ++ [SPACE] ++ fmt c.
  (* spict.rs:40-79 *)
  Definition triplet_of (s : bytes) : option Triplet :=
    let st := split_on (beqb SPACE) (trim s) in
    match st with
    | [_; _; _] => match parse_all st with Some [a; b; c] => Some (a, b, c) | _ => None end
    | _ => None
    end.
  (* spict.rs:144-158 and sfluxmtx.rs:71-80, followed by build_accelerator (161, 82) *)
  Definition load_scene (name : bytes) : outcome Scene :=
    run s <- (if ends_with name (lit ".rad") then
                run src <- ret_opt (read_file name) ;; from_radiance_source parse new_source triangulate src
              else if ends_with name (lit ".spl") then
                run (surfaces, fenestrations) <- ret_opt (model_from_file name) ;; build_scene default_reader Visible surfaces fenestrations
              else Crash) ;;
    build_accelerator s.
  (* spict.rs:81-138; the view-up vector has a default, which clap prints and parses *)
  Record SpictInputs := mkSpict {
    si_input : bytes; si_max_depth : nat; si_n_shadow_samples : nat; si_n_ambient_samples : nat; si_limit_weight : F;
    si_count_specular_bounce : F; si_x : nat; si_y : nat; si_view_point : bytes; si_view_direction : bytes; si_view_up : option bytes;
    si_field_of_view : F }.
  Definition up_text (i : SpictInputs) : bytes := match si_view_up i with Some s => s | None => show_triplet (f0, f1, f0) end.
  Definition vec_of (t : Triplet) : Vec := let '(a, b, c) := t in V3 a b c.
  (* spict.rs:164-182 *)
  Definition spict_camera (i : SpictInputs) (p dir up : Triplet) : Pinhole :=
    pinhole_new (mkView (vec_of p) (vnormalized (vec_of dir)) (vec_of up) (si_field_of_view i)) (mkFilm (si_x i) (si_y i)).
  Definition spict_tracer (i : SpictInputs) : Tracer :=
    mkTracer (si_max_depth i) (si_n_shadow_samples i) (si_n_ambient_samples i) (si_limit_weight i) (si_count_specular_bounce i).
  (* spict.rs:140-195 *)
  Definition spict (nest fuel : nat) (seed : nat -> G) (i : SpictInputs) : outcome (ended bytes) :=
    match triplet_of (si_view_point i), triplet_of (si_view_direction i), triplet_of (up_text i) with
    | Some p, Some dir, Some up =>
        run s <- load_scene (si_input i) ;;
        run buffer <- render_sequential nest fuel (spict_tracer i) s (si_x i) (si_y i) (gen_ray (spict_camera i p dir up)) seed ;;
        Ret (Wrote (save_hdre buffer))
    | _, _, _ => Ret Exited
    end.

  (** ** sfluxmtx.rs *)
  (* Stdin::read_line: what is read next (with its newline) and what is left; an error when it is not UTF-8 *)
  Definition next_line (input : bytes) : bytes * bytes :=
    match cut_line input with Some (l, rest) => (l ++ [NL], rest) | None => (input, []) end.
  (* sfluxmtx.rs:94-164: one line; None is exit(1) *)
  Definition sensor_of (line : bytes) : option Ray3D :=
    let st := split_on (beqb SPACE) (trim line) in
    match st with
    | [_; _; _; _; _; _] =>
        match parse_all st with
        | Some [ox; oy; oz; dx; dy; dz] => Some (mkRay3D (V3 ox oy oz) (vnormalized (V3 dx dy dz)))
        | _ => None
        end
    | _ => None
    end.
  (* sfluxmtx.rs:85-167: `while let Ok(n) = read_line(..)`, so an error ends the loop.  None is exit(1). *)
  Fixpoint read_sensors (fuel : nat) (input : bytes) (rays : list Ray3D) : outcome (option (list Ray3D)) :=
    match fuel with
    | O => Stuck
    | S k =>
        let '(line, rest) := next_line input in
        if negb (utf8 line) then Ret (Some rays)
        else match line with
             | [] => Ret (Some rays)
             | _ => match sensor_of line with
                    | None => Ret None
                    | Some ray => read_sensors k rest (rays ++ [ray])
                    end
             end
    end.
  Definition sensors (input : bytes) : outcome (option (list Ray3D)) := read_sensors (S (length input)) input [].
  (* sfluxmtx.rs:31-66 *)
  Record FluxInputs := mkFlux {
    fi_input : bytes; fi_mf : nat; fi_max_depth : nat; fi_n_ambient_samples : nat; fi_limit_weight : F; fi_count_specular_bounce : F }.
  (* sfluxmtx.rs:169-175 *)
  Definition flux_factory (i : FluxInputs) : DCFactory :=
    mkDC (reinhart_new (fi_mf i)) (fi_max_depth i) (fi_n_ambient_samples i) (fi_limit_weight i) (fi_count_specular_bounce i).
  (* sfluxmtx.rs:68-182 *)
  Definition sfluxmtx (nest fuel : nat) (seed : nat -> G) (seed_ray : nat -> nat -> G) (i : FluxInputs) (input : bytes) : outcome (ended bytes) :=
    run s <- load_scene (fi_input i) ;;
    run rays <- sensors input ;;
    match rays with
    | None => Ret Exited
    | Some rays =>
        run dc_matrix <- calc_dc nest fuel (flux_factory i) rays s seed seed_ray ;;
        run file <- save_colour_matrix fmt5 dc_matrix ;;
        Ret (Wrote file)
    end.

  (** ** scompare.rs and sfalsecolor.rs *)
  (* scompare.rs:7-14, 72-79 and sfalsecolor.rs:7-14, 55-61 *)
  Inductive ColourMap := MapRadiance | MapInferno | MapMagma | MapPlasma | MapViridis.
  Definition scale_of (m : ColourMap) : list Spectrum :=
    map rowN (match m with
              | MapRadiance => radiance_table | MapInferno => inferno_table | MapMagma => magma_table
              | MapPlasma => plasma_table | MapViridis => viridis_table end).
  (* an output: an HDRE file, or what is given to the JPEG encoder *)
  Inductive Output := Hdre (file : bytes) | Jpeg (data : bytes * Z * Z).
  Definition out_of {A} (r : res A) : outcome A := match r with Ok_ a => Ret a | Panic => Crash end.
  (* scompare.rs:16-46 *)
  Record CompareInputs := mkCompare {
    ci_input1 : bytes; ci_input2 : bytes; ci_max : option F; ci_min : option F; ci_log : bool; ci_map : option ColourMap }.
  (* image.rs:194-203 with the rest of from_file; None is an error *)
  Definition load_image (name : bytes) : outcome (option ImageBuffer) :=
    match read_file name with None => Ret None | Some content => from_file content end.
  (* scompare.rs:80-85 and sfalsecolor.rs:63-78 *)
  Definition save_map (m : ImageBuffer) (mn mx : option F) (log : bool) (scale : list Spectrum) : outcome Output :=
    run d <- out_of (if log then log_falsecolour m mn mx scale else falsecolour m mn mx scale) ;; Ret (Jpeg d).
  (* scompare.rs:48-91 *)
  Definition scompare (i : CompareInputs) : outcome (ended Output) :=
    run a <- load_image (ci_input1 i) ;;
    match a with
    | None => Ret Exited
    | Some a =>
        run b <- load_image (ci_input2 i) ;;
        match b with
        | None => Ret Exited
        | Some b =>
            run diff <- img_diff b a ;;
            match diff with
            | None => Ret Exited
            | Some diff =>
                match ci_map i with
                | Some m => run o <- save_map diff (ci_min i) (ci_max i) (ci_log i) (scale_of m) ;; Ret (Wrote o)
                | None => Ret (Wrote (Hdre (save_hdre diff)))
                end
            end
        end
    end.
  (* sfalsecolor.rs:16-79 *)
  Definition sfalsecolor (name : bytes) (mn mx : option F) (log : bool) (m : ColourMap) : outcome (ended Output) :=
    run image <- load_image name ;;
    match image with
    | None => Ret Exited
    | Some image => run o <- save_map image mn mx log (scale_of m) ;; Ret (Wrote o)
    end.
End Tools.
