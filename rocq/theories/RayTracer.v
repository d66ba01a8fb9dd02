(** * RayTracer: model of /repo/src/ray_tracer.rs

    A run of the tracer is a function of the scene, the ray, the auxiliary buffers and the state of the random generator.
    Two kinds of fuel stand for running time: [nest] bounds how deeply calls of trace_ray are nested, [fuel] bounds the number of
    passes of each single loop (and of each walk through the accelerator).  [Stuck] means that a bound was reached, [Crash] a panic.
    Debug assertions and messages are not modelled. *)
From Verif Require Export Num Geometry Triangle Sphere Colour Ray Bvh Material Scene Samplers Primitives Camera.

Section RayTracer.
  Context {N : Num} {T : Trig N} {E : Ext} {R : Gen N} {O : Geo}.
  Local Open Scope num_scope.

  (* ray_tracer.rs:37-49 *)
  Record Helper := mkHelper { h_rays : list Ray; h_nodes : list Z }.
  Definition helper_default : Helper := mkHelper (repeat ray_default 15) [].
  (* ray_tracer.rs:51-71 *)
  Record Tracer := mkTracer {
    max_depth : nat; n_shadow_samples : nat; n_ambient_samples : nat; limit_weight : F; count_specular_bounce : F }.
  Definition tracer_default : Tracer := mkTracer 2 10 70 (flit 1 1000) (flit 3 10).

  (** ** sampling a material: material/mod.rs:119-136 and ward.rs:37-130, drawing from the generator *)
  (* ward.rs:58-106 *)
  Fixpoint ward_draw (fuel : nat) (normal e1 e2 : Vec) (specularity alpha beta : F) (ray : Ray) (g : G)
    : outcome (F * F * F * Ray * G) :=
    match fuel with
    | 0 => Stuck
    | S fuel =>
        let '(xi1, g) := gen g in
        let '(xi2, g) := gen g in
        match ward_loop normal e1 e2 specularity alpha beta ray [(xi1, xi2)] with
        | Ret x => Ret (x, g)
        | Crash => Crash
        | Stuck => ward_draw fuel normal e1 e2 specularity alpha beta ray g       (* the pass did not return: try again *)
        end
    end.
  (* ward.rs:37-130: which numbers are drawn, in which order *)
  Definition sample_ward_draw (fuel : nat) (normal e1 e2 pt : Vec) (specularity alpha beta : F) (ray : Ray) (g : G)
    : outcome (F * F * F * Ray * G) :=
    let '(prob, g) := gen g in
    if prob <? specularity then
      ward_draw fuel normal e1 e2 specularity (rough alpha) (rough beta)
        (set_ray3d ray (vadd pt (vscale normal SHIFT)) (direction (r_geometry ray))) g
    else
      let '(r, g) := gen g in
      let '(theta, g) := gen g in
      run x <- sample_ward normal e1 e2 pt specularity alpha beta ray (mkWD prob [] (r, theta)) ;; Ret (x, g).
  Definition sample_bsdf_draw (fuel : nat) (m : Material) (normal e1 e2 pt : Vec) (ray : Ray) (g : G)
    : outcome (Spectrum * F * Ray * G) :=
    match m with
    | Plastic c s r =>
        run (direct, diffuse, weight, ray, g) <- sample_ward_draw fuel normal e1 e2 pt s r r ray g ;;
        Ret (plastic_bsdf c direct diffuse, weight, ray, g)
    | Metal c s r =>
        run (direct, diffuse, weight, ray, g) <- sample_ward_draw fuel normal e1 e2 pt s r r ray g ;;
        Ret (metal_bsdf c direct diffuse, weight, ray, g)
    | _ => Crash
    end.

  (** ** direct light *)
  (* ray_tracer.rs:415-454 *)
  Definition intersect_light (fuel : nat) (s : Scene) (light : Object) (shadow_ray : Ray3D) (nodes : list Z)
    : outcome (option (Spectrum * F) * list Z) :=
    match prim_intersect (ob_primitive light) shadow_ray with
    | None => Ret (None, nodes)
    | Some info =>
        let light_distance_squared := vlen2 (vsub (origin shadow_ray) (i_p info)) in
        run (clear, nodes) <- scene_unobstructed_distance fuel s shadow_ray light_distance_squared nodes ;;
        if negb clear then Ret (Some (BLACK, f0), nodes)
        else match (match i_side info with Front => Some (ob_front light) | Back => Some (ob_back light) | NonApplicable => None end) with
             | None => Ret (Some (BLACK, f0), nodes)
             | Some index =>
                 run material <- ret_opt (nth_error (sc_materials s) index) ;;
                 run pdf <- solid_angle_pdf (ob_primitive light) info shadow_ray ;;
                 Ret (Some (mat_colour material, pdf), nodes)
             end
    end.

  (* ray_tracer.rs:212-254: the samples of one light; [i] counts the samples that did not miss it *)
  Definition TINY18 : F := flit 1 (10 ^ 18).
  Fixpoint light_loop (loops fuel : nat) (s : Scene) (m : Material) (r : Ray) (pt normal e1 e2 : Vec) (n : nat) (light : Object)
      (i : nat) (local_illum : Spectrum) (nodes : list Z) (g : G) : outcome (Spectrum * list Z * G) :=
    if (i <? n)%nat then
      match loops with
      | 0 => Stuck
      | S loops =>
          run (direction, g) <- sample_direction (ob_primitive light) g pt ;;
          let shadow_ray := mkRay3D pt direction in
          run (hit, nodes) <- intersect_light fuel s light shadow_ray nodes ;;
          match hit with
          | None => light_loop loops fuel s m r pt normal e1 e2 n light i local_illum nodes g     (* missed: try again *)
          | Some (light_colour, light_pdf) =>
              if light_pdf <? TINY18 then light_loop loops fuel s m r pt normal e1 e2 n light (S i) local_illum nodes g
              else
                let cos_theta := fabs (vdot normal direction) in
                let vout := vscale direction (- f1) in
                run bsdf <- eval_bsdf is_parallel is_same_direction m normal e1 e2 r vout ;;
                let fx := smul (smulf light_colour cos_theta) bsdf in
                light_loop loops fuel s m r pt normal e1 e2 n light (S i)
                  (sadd local_illum (sdivf fx (fofZ (Z.of_nat n) * light_pdf))) nodes g
          end
      end
    else Ret (local_illum, nodes, g).
  (* ray_tracer.rs:209-255: `for light in lights.iter()` *)
  Fixpoint lights_loop (fuel : nat) (s : Scene) (m : Material) (r : Ray) (pt normal e1 e2 : Vec) (n : nat) (lights : list Object)
      (local_illum : Spectrum) (nodes : list Z) (g : G) : outcome (Spectrum * list Z * G) :=
    match lights with
    | [] => Ret (local_illum, nodes, g)
    | light :: lights =>
        run (local_illum, nodes, g) <- light_loop fuel fuel s m r pt normal e1 e2 n light 0 local_illum nodes g ;;
        lights_loop fuel s m r pt normal e1 e2 n lights local_illum nodes g
    end.
  (* ray_tracer.rs:191-258 *)
  Definition SHADOW_SHIFT : F := flit 1 1000.
  Definition sample_light_array (fuel : nat) (s : Scene) (m : Material) (r : Ray) (n : nat) (lights : list Object)
      (nodes : list Z) (g : G) : outcome (Spectrum * list Z * G) :=
    let '(pt, normal, e1, e2) := get_triad r in
    let pt := vadd pt (vscale normal SHADOW_SHIFT) in
    lights_loop fuel s m r pt normal e1 e2 n lights BLACK nodes g.
  (* ray_tracer.rs:262-292 *)
  Definition get_local_illumination (fuel : nat) (s : Scene) (m : Material) (r : Ray) (n : nat) (nodes : list Z) (g : G)
    : outcome (Spectrum * list Z * G) :=
    run (close, nodes, g) <- sample_light_array fuel s m r n (sc_lights s) nodes g ;;
    run (distant, nodes, g) <- sample_light_array fuel s m r n (sc_distant_lights s) nodes g ;;
    Ret (sadd close distant, nodes, g).

  (** ** ambient light; [trace] is the recursive call of trace_ray *)
  Definition Traced : Type := Spectrum * F * Ray * Helper * G.
  Definition Trace : Type := Ray -> Helper -> G -> outcome Traced.
  (* aux.rays[depth] = *ray: a panic when out of bounds *)
  Definition store_ray (aux : Helper) (depth : nat) (r : Ray) : outcome Helper :=
    if (depth <? length (h_rays aux))%nat then Ret (mkHelper (set_nth depth r (h_rays aux)) (h_nodes aux)) else Crash.
  (* ray_tracer.rs:320-351: `while count < n` *)
  Fixpoint ambient_loop (trace : Trace) (loops fuel : nat) (m : Material) (pt normal e1 e2 : Vec) (depth n count : nat)
      (global : Spectrum) (r : Ray) (aux : Helper) (g : G) : outcome (Spectrum * Ray * Helper * G) :=
    if (count <? n)%nat then
      match loops with
      | 0 => Stuck
      | S loops =>
          run (bsdf_value, ray_pdf, r, g) <- sample_bsdf_draw fuel m normal e1 e2 pt r g ;;
          let new_ray_dir := direction (r_geometry r) in
          let cos_theta := fabs (vdot normal new_ray_dir) in
          let bsdf_rad := radiance bsdf_value in
          let r := set_depth r (S (r_depth r)) in
          let r := set_value r (r_value r * (bsdf_rad * cos_theta / ray_pdf)) in
          run (li, light_pdf, r, aux, g) <- trace r aux g ;;
          run saved <- ret_opt (nth_error (h_rays aux) depth) ;;
          if light_pdf >? f0 then
            ambient_loop trace loops fuel m pt normal e1 e2 depth n count global saved aux g
          else
            let fx := smulf (smul li bsdf_value) cos_theta in
            ambient_loop trace loops fuel m pt normal e1 e2 depth n (S count) (sadd global (sdivf fx ray_pdf)) saved aux g
      end
    else Ret (global, r, aux, g).
  (* ray_tracer.rs:294-353 *)
  Definition get_global_illumination (trace : Trace) (fuel : nat) (n : nat) (m : Material) (r : Ray) (aux : Helper) (g : G)
    : outcome (Spectrum * Ray * Helper * G) :=
    if Nat.eqb n 0 then Ret (BLACK, r, aux, g)
    else
      let '(pt, normal, e1, e2) := get_triad r in
      let depth := r_depth r in
      run aux <- store_ray aux depth r ;;
      run (global, r, aux, g) <- ambient_loop trace fuel fuel m pt normal e1 e2 depth n 0 BLACK r aux g ;;
      Ret (sdivf global (fofZ (Z.of_nat n)), r, aux, g).

  (** ** specular bounces *)
  (* ray_tracer.rs:118-131: one pass of `for (new_ray, bsdf_value) in paths.iter().flatten()` *)
  Definition specular_path (trace : Trace) (c : Tracer) (p : Path) (specular_li : Spectrum) (r : Ray) (aux : Helper) (g : G)
    : outcome (Spectrum * Ray * Helper * G) :=
    match p with
    | None => Ret (specular_li, r, aux, g)
    | Some (new_ray, bsdf_value) =>
        let r := set_value r (r_value r * radiance bsdf_value) in
        let '(q, g) := gen g in
        let new_ray := if q <? count_specular_bounce c then set_depth new_ray (S (r_depth new_ray)) else new_ray in
        run (li, _, _, aux, g) <- trace new_ray aux g ;;
        Ret (sadd specular_li (smul li bsdf_value), r, aux, g)
    end.
  (* ray_tracer.rs:112-135 *)
  Definition specular_bounce (trace : Trace) (c : Tracer) (m : Material) (normal pt : Vec) (r : Ray) (aux : Helper) (g : G)
    : outcome Traced :=
    run (p1, p2) <- get_possible_paths m normal pt r ;;
    run (li, r, aux, g) <- specular_path trace c p1 BLACK r aux g ;;
    run (li, r, aux, g) <- specular_path trace c p2 li r aux g ;;
    Ret (li, f0, set_colour r (smul (r_colour r) li), aux, g).

  (** ** trace_ray *)
  (* ray_tracer.rs:137-142 with ray.rs:90-115: the generator is only used below the first surface *)
  Definition draw_n_ambient_samples (c : Tracer) (r : Ray) (g : G) : nat * Ray * G :=
    if Nat.eqb (max_depth c) 0 || Nat.eqb (n_ambient_samples c) 0 || Nat.eqb (r_depth r) 0 then
      (get_n_ambient_samples r (n_ambient_samples c) (max_depth c) (limit_weight c) f0, g)
    else
      let '(q, g) := gen g in
      (get_n_ambient_samples r (n_ambient_samples c) (max_depth c) (limit_weight c) q, g).
  (* ray_tracer.rs:82-93: the material of the side that was hit; None for an edge-on hit *)
  Definition hit_material (s : Scene) (r : Ray) (index : nat) : outcome (option Material) :=
    let look (l : list nat) :=
      run i <- ret_opt (nth_error l index) ;; run m <- ret_opt (nth_error (sc_materials s) i) ;; Ret (Some m) in
    match i_side (x_shading (r_interaction r)) with
    | Front => look (a_front (sc_arrays s))
    | Back => look (a_back (sc_arrays s))
    | NonApplicable => Ret None
    end.
  (* ray_tracer.rs:172-186 *)
  Definition see_sky (s : Scene) (r : Ray) : Spectrum * F * Ray :=
    match sc_sky s with
    | Some sky =>
        let sky_brightness := sky (direction (r_geometry r)) in
        let colour := match sc_sky_colour s with Some c => c | None => gray f1 end in
        (smulf colour sky_brightness, f1 / f2 / fpi, set_colour r (smul (r_colour r) (smulf colour sky_brightness)))
    | None => (BLACK, f0, r)
    end.
  (* ray_tracer.rs:137-170: local plus global illumination of a scattering surface *)
  Definition scatter (trace : Trace) (fuel : nat) (c : Tracer) (s : Scene) (m : Material) (r : Ray) (aux : Helper) (g : G)
    : outcome Traced :=
    let '(n_ambient, r, g) := draw_n_ambient_samples c r g in
    let n_shadow := if Nat.eqb (r_depth r) 0 then n_shadow_samples c else 1%nat in
    run (local, nodes, g) <- get_local_illumination fuel s m r n_shadow (h_nodes aux) g ;;
    run (global, r, aux, g) <- get_global_illumination trace fuel n_ambient m r (mkHelper (h_rays aux) nodes) g ;;
    Ret (sadd local global, f0, r, aux, g).
  (* ray_tracer.rs:74-188 *)
  Fixpoint trace_ray (nest fuel : nat) (c : Tracer) (s : Scene) (r : Ray) (aux : Helper) (g : G) : outcome Traced :=
    match nest with
    | 0 => Stuck
    | S nest =>
        run (hit, r, nodes) <- cast_ray fuel s r (h_nodes aux) ;;
        let aux := mkHelper (h_rays aux) nodes in
        match hit with
        | None => let '(li, pdf, r) := see_sky s r in Ret (li, pdf, r, aux, g)
        | Some i =>
            let index := Z.to_nat i in
            run material <- hit_material s r index ;;
            match material with
            | None => Ret (BLACK, f0, r, aux, g)
            | Some m =>
                let '(pt, normal, _, _) := get_triad r in
                if emits_light m then
                  run t <- ret_opt (nth_error (a_tri (sc_arrays s)) index) ;;
                  Ret (mat_colour m, triangle_solid_angle_pdf t pt (i_normal (x_shading (r_interaction r))) (r_geometry r), r, aux, g)
                else if (max_depth c <? r_depth r)%nat then Ret (BLACK, f0, r, aux, g)
                else
                  run normals <- ret_opt (nth_error (a_norm (sc_arrays s)) index) ;;
                  let r := set_shading r (interpolate_normal (x_shading (r_interaction r)) normals) in
                  if specular_only m then specular_bounce (trace_ray nest fuel c s) c m normal pt r aux g
                  else scatter (trace_ray nest fuel c s) fuel c s m r aux g
            end
        end
    end.

  (** ** render *)
  (* ray_tracer.rs:388-389: `(pindex as Float / width as Float).floor() as usize` and `pindex - y * width`.  The floor of a
     non-negative float and its saturating truncation agree. *)
  Definition pixel_position (width pindex : nat) : outcome (nat * nat) :=
    let y := Z.to_nat (ftrunc 0 USIZE_MAX (fofZ (Z.of_nat pindex) / fofZ (Z.of_nat width))) in
    if (pindex <? y * width)%nat then Crash                   (* usize subtraction underflow *)
    else Ret ((pindex - y * width)%nat, y).
  (* ray_tracer.rs:387-394: one pixel of a chunk; [gen_ray] is the camera's *)
  Definition render_pixel (nest fuel : nat) (c : Tracer) (s : Scene) (gen_ray : nat * nat -> Ray * F) (width pindex : nat)
      (aux : Helper) (g : G) : outcome (Spectrum * Helper * G) :=
    run p <- pixel_position width pindex ;;
    let '(ray, weight) := gen_ray p in
    run (v, _, _, aux, g) <- trace_ray nest fuel c s (set_value ray weight) aux g ;;
    Ret (v, aux, g).
End RayTracer.
