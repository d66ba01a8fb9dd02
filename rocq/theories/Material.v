(** * Material: model of /repo/src/material/ (specular, mirror, dielectric, glass, ward, plastic, metal, light, mod)

    Debug assertions are not modelled (they are absent from release builds).  The vector predicates of geometry3d used to
    compare directions, `is_parallel` and `is_same_direction`, are arguments. *)
From Verif Require Export Num Geometry Colour Ray Samplers Bvh.

Section Material.
  Context {N : Num} {T : Trig N}.
  Local Open Scope num_scope.

  (** ** specular.rs *)
  (* specular.rs:49-82; [dir] and [n1] are the ray's direction and refraction index *)
  Definition cos_and_n (dir : Vec) (n1 : F) (normal : Vec) (refraction_index : F) : F * F * F * option F :=
    let cos1 := fabs (vdot dir normal) in
    let n2 := if fabs (n1 - refraction_index) <? flit 1 10000000 then f1 else refraction_index in
    let sin1_sq := fclamp (f1 - cos1 * cos1) f0 FMAX in
    let sin2_sq := n1 * n1 * sin1_sq / (n2 * n2) in
    if sin2_sq >? f1 then (n1, cos1, n2, None)
    else (n1, cos1, n2, Some (fsqrt (f1 - sin2_sq))).

  (* specular.rs:91-93 *)
  Definition fresnel_te (n1 cos1 n2 cos2 : F) : F := (n1 * cos1 - n2 * cos2) / (n1 * cos1 + n2 * cos2).
  (* specular.rs:102-105 *)
  Definition fresnel_tm (n1 cos1 n2 cos2 : F) : F := (n1 / cos1 - n2 / cos2) / (n1 / cos1 + n2 / cos2).
  (* specular.rs:107-111 *)
  Definition fresnel_reflectance (n1 cos1 n2 cos2 : F) : F :=
    let parallel := fresnel_tm n1 cos1 n2 cos2 in
    let perpendicular := fresnel_te n1 cos1 n2 cos2 in
    flit 1 2 * (parallel * parallel + perpendicular * perpendicular).

  (* specular.rs:114-154 *)
  Definition fresnel_transmission_dir (vin normal : Vec) (n1 cos1 n2 cos2 : F) : Vec :=
    let n_ratio := n1 / n2 in
    vadd (vscale vin n_ratio) (vscale normal (n_ratio * cos1 - cos2)).

  (* specular.rs:157-165 *)
  Definition mirror_direction (vin normal : Vec) : Vec :=
    let vin_normal := vdot vin normal in
    vnormalized (vsub vin (vscale normal (f2 * vin_normal))).

  (* 0.00001, the offset that avoids self-shading *)
  Definition SHIFT : F := flit 1 100000.
  Definition set_ray3d (r : Ray) (o d : Vec) : Ray := set_geometry r (mkRay3D o d).

  (* specular.rs:168-180: returns the BSDF and the modified ray *)
  Definition mirror_bsdf (pt : Vec) (ray : Ray) (normal : Vec) : F * Ray :=
    let ray_dir := direction (r_geometry ray) in
    let cos := fabs (vdot ray_dir normal) in
    (f1 / cos, set_ray3d ray (vadd pt (vscale normal SHIFT)) (mirror_direction ray_dir normal)).

  (* specular.rs:183-191 *)
  Definition eval_mirror_bsdf (is_parallel : Vec -> Vec -> bool) (normal vin vout : Vec) : F :=
    if is_parallel vout (mirror_direction vin normal) then f1 / fabs (vdot vin normal) else f0.

  (** ** the two possible specular paths: [Option<(Ray, Spectrum)>; 2] *)
  Definition Path : Type := option (Ray * Spectrum).

  (** ** mirror.rs *)
  (* mirror.rs:38-52 *)
  Definition mirror_paths (colour : Spectrum) (normal pt : Vec) (ray : Ray) : Path * Path :=
    let '(v, ray) := mirror_bsdf pt ray normal in
    let cos_theta := fabs (vdot normal (direction (r_geometry ray))) in
    (Some (ray, smulf (smulf ONE v) cos_theta), None).
  (* mirror.rs:68-78 *)
  Definition mirror_eval (is_parallel : Vec -> Vec -> bool) (colour : Spectrum) (normal : Vec) (ray : Ray) (vout : Vec) : Spectrum :=
    smulf colour (eval_mirror_bsdf is_parallel normal (direction (r_geometry ray)) vout).

  (** ** dielectric.rs *)
  (* dielectric.rs:47-98 *)
  Definition dielectric_refl_trans (colour : Spectrum) (n1 cos1 n2 : F) (cos2 : option F) : Spectrum * Spectrum :=
    match cos2 with
    | Some cos2 =>
        let refl := fresnel_reflectance n1 cos1 n2 cos2 in
        let ratio := n2 / n1 in
        let n_ratio2 := ratio * ratio in
        let t_comp := (f1 - refl) * n_ratio2 in
        (sdivf (smulf ONE refl) cos1, sdivf (smulf colour t_comp) cos2)
    | None => (sdivf ONE cos1, BLACK)
    end.
  (* dielectric.rs:110-151 *)
  Definition dielectric_paths (colour : Spectrum) (refraction_index : F) (normal pt : Vec) (ray : Ray) : Path * Path :=
    let ray_dir := direction (r_geometry ray) in
    let '(n1, cos1, n2, cos2) := cos_and_n ray_dir (r_refraction_index ray) normal refraction_index in
    let '(refl, trans) := dielectric_refl_trans colour n1 cos1 n2 cos2 in
    let mirror_dir := mirror_direction ray_dir normal in
    let ray1 := set_ray3d ray (vadd pt (vscale normal SHIFT)) mirror_dir in
    (Some (ray1, smulf refl cos1),
     match cos2 with
     | Some cos2 =>
         let trans_dir := fresnel_transmission_dir ray_dir normal n1 cos1 n2 cos2 in
         let ray2 := set_ray3d ray (vsub pt (vscale normal SHIFT)) trans_dir in
         let ray2 := set_refraction ray2 n2 in
         let ray2 := set_colour ray2 (smul (r_colour ray2) colour) in
         Some (ray2, smulf trans cos2)
     | None => None
     end).
  (* dielectric.rs:217-257 *)
  Definition dielectric_eval (is_same_direction : Vec -> Vec -> bool) (colour : Spectrum) (refraction_index : F)
      (normal : Vec) (ray : Ray) (vout : Vec) : Spectrum :=
    let vin := direction (r_geometry ray) in
    let '(n1, cos1, n2, cos2) := cos_and_n vin (r_refraction_index ray) normal refraction_index in
    let '(refl, trans) := dielectric_refl_trans colour n1 cos1 n2 cos2 in
    if is_same_direction vout (mirror_direction vin normal) then smul colour refl
    else match cos2 with
         | Some cos2 =>
             if is_same_direction vout (fresnel_transmission_dir vin normal n1 cos1 n2 cos2) then smul colour trans
             else BLACK
         | None => BLACK
         end.

  (** ** glass.rs *)
  (* glass.rs:27-39: the verdict and the modified colour *)
  Definition MIN_COLOUR : F := flit 1 (10 ^ 15).
  Definition any_transmission (colour : Spectrum) : bool * Spectrum :=
    if smax colour <? MIN_COLOUR then (false, colour)
    else (true, smap (fun v => if v <? MIN_COLOUR then MIN_COLOUR else v) colour).
  Definition fsq (x : F) : F := x * x.                           (* powi(2) *)
  Definition spowf (a : Spectrum) (p : F) : Spectrum := smap (fun v => fpow v p) a.    (* colour.rs:63-70 *)
  (* glass.rs:49-101 *)
  Definition glass_refl_trans (colour : Spectrum) (rindex : F) (normal direction : Vec) (cos1 : F) : Spectrum * Spectrum :=
    let any := fst (any_transmission colour) in
    let pdot := fabs (vdot normal direction) in
    let cos2 := fsqrt ((f1 - f1 / fsq rindex) + fsq (pdot / rindex)) in
    let r1e := fsq ((pdot - rindex * cos2) / (pdot + rindex * cos2)) in
    let r1m := fsq ((f1 / pdot - rindex / cos2) / (f1 / pdot + rindex / cos2)) in
    let d := if any then spowf colour (f1 / cos2) else colour in
    let t_comp :=
      if any then
        smul (smulf d (flit 1 2))
          (sadd (fsdiv (fsq (f1 - r1e)) (fssub f1 (spow2 (smulf d r1e))))
                (fsdiv (fsq (f1 - r1m)) (fssub f1 (spow2 (smulf d r1m)))))
      else BLACK in
    let d := spow2 d in
    let part r := sdiv (fsmul r (fsadd f1 (fsmul (f1 - f2 * r) d))) (fssub f1 (fsmul (r * r) d)) in
    (fsmul (flit 1 2) (sadd (part r1e) (part r1m)), t_comp).
  (* glass.rs:109-113 *)
  Definition glass_colour (colour : Spectrum) : Spectrum := snd (any_transmission colour).
  (* glass.rs:115-159 *)
  Definition glass_paths (colour : Spectrum) (rindex : F) (normal pt : Vec) (ray : Ray) : Path * Path :=
    let ray_dir := direction (r_geometry ray) in
    let mirror_dir := mirror_direction ray_dir normal in
    let '(_, cos1, _, _) := cos_and_n ray_dir (r_refraction_index ray) normal rindex in
    let '(refl, trans) := glass_refl_trans colour rindex normal ray_dir cos1 in
    let ray1 := set_ray3d ray (vadd pt (vscale normal SHIFT)) mirror_dir in
    (Some (ray1, refl),
     if radiance trans >? f0 then
       Some (set_ray3d ray (vsub pt (vscale normal SHIFT)) ray_dir, trans)
     else None).
  (* glass.rs:206-242 *)
  Definition glass_eval (is_same_direction : Vec -> Vec -> bool) (colour : Spectrum) (rindex : F)
      (normal : Vec) (ray : Ray) (vout : Vec) : Spectrum :=
    let vin := direction (r_geometry ray) in
    let '(_, cos1, _, cos2) := cos_and_n vin (r_refraction_index ray) normal rindex in
    let '(refl, trans) := glass_refl_trans colour rindex normal vin cos1 in
    if is_same_direction vout (mirror_direction vin normal) then refl
    else if fst (any_transmission colour) then BLACK
    else match cos2 with
         | Some _ => if is_same_direction vout vin then smul colour trans else sdivf ONE cos1
         | None => sdivf ONE cos1
         end.

  (** ** ward.rs *)
  Definition LOW_ROUGHNESS : F := flit 1 1000.                  (* ward.rs:28 *)
  Definition rough (a : F) : F := if a <? LOW_ROUGHNESS then LOW_ROUGHNESS else a.   (* ward.rs:47-52 and 148-153 *)

  (* ward.rs:137-172; [i] is the ray's direction *)
  Definition evaluate_ward (normal e1 e2 : Vec) (specularity alpha beta : F) (i l : Vec) : F * F :=
    let diffuse := (f1 - specularity) / fpi in
    if specularity >? flit 1 100000 then
      let alpha := rough alpha in
      let beta := rough beta in
      let h := vsub l i in
      let i_n := vdot i normal in
      if i_n >? f0 then (f0, f0)
      else
        let h_n := vdot h normal in
        let c1 := specularity * vdot h h / (fpi * alpha * beta * (fsq (fsq h_n))) in
        let c2 := - (fsq (vdot h e1 / alpha) + fsq (vdot h e2 / beta)) / fsq h_n in
        (c1 * fexp c2, diffuse)
    else (f0, diffuse).

  (* ward.rs:59-79: the direction proposed by one pass of the loop, from the outgoing-light vector l = -direction *)
  Definition ward_direction (normal e1 e2 : Vec) (alpha beta : F) (l : Vec) (xi1 xi2 : F) : Vec :=
    let d := f2 * fpi * xi1 in
    let cosp := fcos d * alpha in
    let sinp := fsin d * beta in
    let d := f1 / fsqrt (fsq cosp + fsq sinp) in
    let cosp := cosp * d in
    let sinp := sinp * d in
    let d := if xi2 <? flit 1 1000000000 then f1
             else fsqrt (- fln xi2 / (fsq (cosp / alpha) + fsq (sinp / beta))) in
    let h := vadd (vadd normal (vscale (vscale e1 cosp) d)) (vscale (vscale e2 sinp) d) in
    let d := vdot h l * (- f2) / (f1 + fsq d) in
    vnormalized (vadd l (vscale normal d)).

  (* ward.rs:58-106: the rejection loop; [draws] are the successive pairs (xi1, xi2).  Each pass reads the same
     unmodified ray, so only the draws change. *)
  Fixpoint ward_loop (normal e1 e2 : Vec) (specularity alpha beta : F) (ray : Ray) (draws : list (F * F))
    : outcome (F * F * F * Ray) :=
    match draws with
    | [] => Stuck
    | (xi1, xi2) :: draws =>
        let l := vscale (direction (r_geometry ray)) (- f1) in
        let v := ward_direction normal e1 e2 alpha beta l xi1 xi2 in
        let l_n := vdot l normal in
        let v_n := vdot v normal in
        if (v_n >? f0) || (l_n >? f0) then
          let '(spec, diffuse) := evaluate_ward normal e1 e2 specularity alpha beta
                                    (direction (r_geometry ray)) (vscale v (- f1)) in
          if negb (spec =? spec) then Crash                       (* is_nan => panic! *)
          else
            let weight := f2 / (f1 + v_n / l_n) in
            Ret (spec, diffuse, weight, set_ray3d ray (origin (r_geometry ray)) v)
        else ward_loop normal e1 e2 specularity alpha beta ray draws
    end.

  (* ward.rs:36-130.  [prob_spec] decides between the two branches; [draws] feed the specular loop, [disc] = (r, theta)
     the cosine-weighted hemisphere. *)
  Record WardDraws := mkWD { wd_prob : F; wd_pairs : list (F * F); wd_disc : F * F }.
  Definition sample_ward (normal e1 e2 pt : Vec) (specularity alpha beta : F) (ray : Ray) (w : WardDraws)
    : outcome (F * F * F * Ray) :=
    let alpha := rough alpha in
    let beta := rough beta in
    let ray := set_ray3d ray (vadd pt (vscale normal SHIFT)) (direction (r_geometry ray)) in
    if wd_prob w <? specularity then ward_loop normal e1 e2 specularity alpha beta ray (wd_pairs w)
    else
      let local_dir := sample_cosine_weighted_horizontal_hemisphere (fst (wd_disc w)) (snd (wd_disc w)) in
      let diffuse := (f1 - specularity) / fpi in
      let p := local_to_world e1 e2 normal vorigin (vx local_dir) (vy local_dir) (vz local_dir) in
      let new_dir := vnormalized p in
      let pdf := vdot normal new_dir / fpi in
      Ret (f0, diffuse, pdf, set_ray3d ray (origin (r_geometry ray)) new_dir).

  (** ** mod.rs, plastic.rs, metal.rs, light.rs *)
  (* mod.rs:49-56 with the structs of plastic.rs:28-32, metal.rs:28-32, light.rs:24, mirror.rs:27,
     dielectric.rs:27-30, glass.rs:41-44 *)
  Inductive Material :=
  | Plastic (colour : Spectrum) (specularity roughness : F)
  | Metal (colour : Spectrum) (specularity roughness : F)
  | Light (colour : Spectrum)
  | Mirror (colour : Spectrum)
  | Dielectric (colour : Spectrum) (refraction_index : F)
  | Glass (colour : Spectrum) (refraction_index : F).

  (* mod.rs:74-83 *)
  Definition mat_colour (m : Material) : Spectrum :=
    match m with
    | Plastic c _ _ | Metal c _ _ | Light c | Mirror c | Dielectric c _ => c
    | Glass c _ => glass_colour c
    end.
  (* mod.rs:86-88 and 91-93 *)
  Definition emits_direct_light (m : Material) : bool := match m with Light _ => true | _ => false end.
  Definition emits_light (m : Material) : bool := match m with Light _ => true | _ => false end.
  (* mod.rs:99-101 *)
  Definition specular_only (m : Material) : bool :=
    match m with Mirror _ | Glass _ _ | Dielectric _ _ => true | _ => false end.

  (* mod.rs:103-115 *)
  Definition get_possible_paths (m : Material) (normal pt : Vec) (ray : Ray) : outcome (Path * Path) :=
    match m with
    | Mirror c => Ret (mirror_paths c normal pt ray)
    | Dielectric c n => Ret (dielectric_paths c n normal pt ray)
    | Glass c n => Ret (glass_paths c n normal pt ray)
    | _ => Crash
    end.

  (* plastic.rs:43-67, metal.rs:43-69 *)
  Definition plastic_bsdf (colour : Spectrum) (direct diffuse : F) : Spectrum := sadd (gray direct) (smulf colour diffuse).
  Definition metal_bsdf (colour : Spectrum) (direct diffuse : F) : Spectrum := sadd (smulf colour direct) (smulf colour diffuse).

  (* mod.rs:119-136 *)
  Definition sample_bsdf (m : Material) (normal e1 e2 pt : Vec) (ray : Ray) (w : WardDraws)
    : outcome (Spectrum * F * Ray) :=
    match m with
    | Plastic c s r =>
        run (direct, diffuse, weight, ray) <- sample_ward normal e1 e2 pt s r r ray w ;;
        Ret (plastic_bsdf c direct diffuse, weight, ray)
    | Metal c s r =>
        run (direct, diffuse, weight, ray) <- sample_ward normal e1 e2 pt s r r ray w ;;
        Ret (metal_bsdf c direct diffuse, weight, ray)
    | _ => Crash
    end.

  (* mod.rs:139-155, plastic.rs:69-90, metal.rs:71-92 (both negate vout before calling the Ward model) *)
  Definition eval_bsdf (is_parallel is_same_direction : Vec -> Vec -> bool)
      (m : Material) (normal e1 e2 : Vec) (ray : Ray) (vout : Vec) : outcome Spectrum :=
    match m with
    | Plastic c s r =>
        let '(direct, diffuse) := evaluate_ward normal e1 e2 s r r (direction (r_geometry ray)) (vscale vout (- f1)) in
        Ret (plastic_bsdf c direct diffuse)
    | Metal c s r =>
        let '(direct, diffuse) := evaluate_ward normal e1 e2 s r r (direction (r_geometry ray)) (vscale vout (- f1)) in
        Ret (metal_bsdf c direct diffuse)
    | Light _ => Crash
    | Mirror c => Ret (mirror_eval is_parallel c normal ray vout)
    | Dielectric c n => Ret (dielectric_eval is_same_direction c n normal ray vout)
    | Glass c n => Ret (glass_eval is_same_direction c n normal ray vout)
    end.
End Material.
