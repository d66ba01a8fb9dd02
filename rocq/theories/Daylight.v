(** * Daylight: model of /repo/src/daylight_coefficients.rs

    The budgets [nest] and [fuel] are those of RayTracer.v.  The sky subdivision (crate `solar`) is external: a number of bins and a
    function from directions to bins.  `+=` of the crate `matrix` adds element by element and is an error for different sizes.
    Every call of `get_rng()` gives a fresh generator: [seed i] is the one of sensor i, [seed_ray i k] the one of its k-th primary
    ray.  The parallel maps of the code share nothing but the progress counter (not modelled), so they are plain maps here; debug
    assertions and messages are not modelled. *)
From Verif Require Export Num Geometry Colour ColourMatrix Ray Material Scene Samplers Primitives RayTracer.

Section Daylight.
  Context {N : Num} {T : Trig N} {E : Ext} {R : Gen N} {O : Geo}.
  Local Open Scope num_scope.

  (* solar::ReinhartSky, as used in daylight_coefficients.rs:65 and 277 *)
  Record ReinhartSky := mkReinhart { n_bins : nat; dir_to_bin : Vec -> nat }.
  (* daylight_coefficients.rs:39-60 *)
  Record DCFactory := mkDC {
    dc_reinhart : ReinhartSky; dc_max_depth : nat; dc_n_ambient_samples : nat; dc_limit_weight : F; dc_count_specular_bounce : F }.
  Definition dc_default (reinhart1 : ReinhartSky) : DCFactory := mkDC reinhart1 0 10 (flit 1 10000) (flit 1 2).

  Definition Contribution : Type := GMatrix Spectrum.
  Definition DCTraced : Type := Ray * Contribution * Helper * G.
  Definition DCTrace : Type := Ray -> Contribution -> Helper -> G -> outcome DCTraced.
  (* `matrix += &other` *)
  Definition mat_add (a b : Contribution) : outcome Contribution :=
    if Nat.eqb (m_rows a) (m_rows b) && Nat.eqb (m_cols a) (m_cols b)
    then Ret (mkMat (m_rows a) (m_cols a) (map (fun p => sadd (fst p) (snd p)) (combine (m_data a) (m_data b)))) else Crash.

  (* daylight_coefficients.rs:277-289: the ray reached the sky (or the ground) *)
  Definition reach_sky (d : DCFactory) (r : Ray) (contribution : Contribution) : outcome Contribution :=
    let bin_n := dir_to_bin (dc_reinhart d) (direction (r_geometry r)) in
    run old_value <- ret_opt (mat_get contribution 0 bin_n) ;;
    ret_opt (mat_set contribution 0 bin_n (sadd old_value (sdivf (smul ONE (r_colour r)) (fofZ (Z.of_nat (dc_n_ambient_samples d)))))).

  (* daylight_coefficients.rs:221-238: one pass over the possible paths *)
  Definition dc_specular_path (trace : DCTrace) (d : DCFactory) (p : Path) (contribution : Contribution) (aux : Helper) (g : G)
    : outcome (Contribution * Helper * G) :=
    match p with
    | None => Ret (contribution, aux, g)
    | Some (new_ray, bsdf_value) =>
        let new_ray := set_colour new_ray (smul (r_colour new_ray) bsdf_value) in
        let new_ray := set_value new_ray (r_value new_ray * radiance bsdf_value) in
        let '(q, g) := gen g in
        let new_ray := if q <? dc_count_specular_bounce d then set_depth new_ray (S (r_depth new_ray)) else new_ray in
        run (_, contribution, aux, g) <- trace new_ray contribution aux g ;;
        Ret (contribution, aux, g)
    end.
  (* daylight_coefficients.rs:253-275: `(0..n_ambient_samples).for_each`.  The ray is not restored between the samples. *)
  Fixpoint dc_ambient (trace : DCTrace) (fuel : nat) (m : Material) (pt normal e1 e2 : Vec) (n : nat)
      (r : Ray) (contribution : Contribution) (aux : Helper) (g : G) : outcome DCTraced :=
    match n with
    | 0%nat => Ret (r, contribution, aux, g)
    | S n =>
        run (bsdf_value, weight, r, g) <- sample_bsdf_draw fuel m normal e1 e2 pt r g ;;
        let new_ray_dir := direction (r_geometry r) in
        let cos_theta := fabs (vdot normal new_ray_dir) in
        let r := set_colour r (smul (r_colour r) (sdivf (smulf bsdf_value cos_theta) weight)) in
        let r := set_depth r (S (r_depth r)) in
        run (r, contribution, aux, g) <- trace r contribution aux g ;;
        dc_ambient trace fuel m pt normal e1 e2 n r contribution aux g
    end.
  (* daylight_coefficients.rs:242-247 with ray.rs:90-115, as in ray_tracer.rs *)
  Definition dc_tracer (d : DCFactory) : Tracer :=
    mkTracer (dc_max_depth d) 0 (dc_n_ambient_samples d) (dc_limit_weight d) (dc_count_specular_bounce d).
  (* daylight_coefficients.rs:183-300 *)
  Fixpoint dc_trace (nest fuel : nat) (d : DCFactory) (s : Scene) (r : Ray) (contribution : Contribution) (aux : Helper) (g : G)
    : outcome DCTraced :=
    match nest with
    | 0%nat => Stuck
    | S nest =>
        run (hit, r, nodes) <- cast_ray fuel s r (h_nodes aux) ;;
        let aux := mkHelper (h_rays aux) nodes in
        match hit with
        | None => run contribution <- reach_sky d r contribution ;; Ret (r, contribution, aux, g)
        | Some i =>
            let index := Z.to_nat i in
            if (dc_max_depth d <? r_depth r)%nat then Ret (r, contribution, aux, g)
            else
              run material <- hit_material s r index ;;
              match material with
              | None => Ret (r, contribution, aux, g)
              | Some m =>
                  if (dc_max_depth d <? r_depth r)%nat || emits_direct_light m then Ret (r, contribution, aux, g)
                  else
                    let '(pt, normal, _, _) := get_triad r in
                    run normals <- ret_opt (nth_error (a_norm (sc_arrays s)) index) ;;
                    let r := set_shading r (interpolate_normal (x_shading (r_interaction r)) normals) in
                    if specular_only m then
                      run (p1, p2) <- get_possible_paths m normal pt r ;;
                      run (contribution, aux, g) <- dc_specular_path (dc_trace nest fuel d s) d p1 contribution aux g ;;
                      run (contribution, aux, g) <- dc_specular_path (dc_trace nest fuel d s) d p2 contribution aux g ;;
                      Ret (r, contribution, aux, g)
                    else
                      let '(n, r, g) := draw_n_ambient_samples (dc_tracer d) r g in
                      run aux <- store_ray aux (r_depth r) r ;;
                      let '(_, normal, e1, e2) := get_triad r in
                      dc_ambient (dc_trace nest fuel d s) fuel m pt normal e1 e2 n r contribution aux g
              end
        end
    end.

  (** ** calc_dc *)
  (* daylight_coefficients.rs:84-90: the directions are drawn first, in order *)
  Fixpoint draw_directions (n : nat) (g : G) : list Vec :=
    match n with
    | 0%nat => []
    | S n => let '(r, g) := gen g in let '(theta, g) := gen g in sample_cosine_weighted_horizontal_hemisphere r theta :: draw_directions n g
    end.
  (* daylight_coefficients.rs:100-140: a primary ray *)
  Definition primary_ray (e1 e2 normal origin local_dir : Vec) : Ray :=
    let dir := local_to_world e1 e2 normal vorigin (vx local_dir) (vy local_dir) (vz local_dir) in
    set_colour (set_ray3d ray_default origin dir) (gray fpi).
  Definition dc_primary (nest fuel : nat) (d : DCFactory) (s : Scene) (r : Ray) (g : G) : outcome Contribution :=
    run (_, contribution, _, _) <- dc_trace nest fuel d s r (mat_new BLACK 1 (n_bins (dc_reinhart d))) helper_default g ;;
    Ret contribution.
  (* a map whose calls may panic *)
  Fixpoint map_out {A B} (f : nat -> A -> outcome B) (i : nat) (l : list A) : outcome (list B) :=
    match l with
    | [] => Ret []
    | x :: l => run y <- f i x ;; run ys <- map_out f (S i) l ;; Ret (y :: ys)
    end.
  Fixpoint add_all (acc : Contribution) (l : list Contribution) : outcome Contribution :=
    match l with
    | [] => Ret acc
    | c :: l => run acc <- mat_add acc c ;; add_all acc l
    end.
  (* daylight_coefficients.rs:77-163: one sensor *)
  Definition dc_sensor (nest fuel : nat) (d : DCFactory) (s : Scene) (ray : Ray3D) (g : G) (seed_ray : nat -> G) : outcome Contribution :=
    let normal := direction ray in
    run e2 <- ret_opt (get_perpendicular normal) ;;
    let e1 := vcross e2 normal in
    let directions := draw_directions (dc_n_ambient_samples d) g in
    run contributions <- map_out (fun k l => dc_primary nest fuel d s (primary_ray e1 e2 normal (origin ray) l) (seed_ray k)) 0 directions ;;
    add_all (mat_new BLACK 1 (n_bins (dc_reinhart d))) contributions.
  (* daylight_coefficients.rs:63-178 *)
  Definition calc_dc (nest fuel : nat) (d : DCFactory) (rays : list Ray3D) (s : Scene) (seed : nat -> G) (seed_ray : nat -> nat -> G)
    : outcome (GMatrix Spectrum) :=
    run dcs <- map_out (fun i ray => dc_sensor nest fuel d s ray (seed i) (seed_ray i)) 0 rays ;;
    for_range 0 (length dcs) (fun sensor_index ret =>
      run contribution <- ret_opt (nth_error dcs sensor_index) ;;
      for_range 0 (n_bins (dc_reinhart d)) (fun patch_index ret =>
        run v <- ret_opt (mat_get contribution 0 patch_index) ;;
        ret_opt (mat_set ret sensor_index patch_index v)) ret)
      (mat_new BLACK (length rays) (n_bins (dc_reinhart d))).
End Daylight.
