(** * SpecDraws: which random numbers decide what (any arithmetic)

    The same description of what a ray sees as SpecTracer, with the random numbers accounted for: every step says at which state of
    the generator it starts and at which one it ends, so that consecutive decisions use consecutive numbers and none is used twice,
    and every sample that is discarded is listed, with the reason why. *)
From Verif Require Import Num Geometry Triangle Sphere Colour Ray Bvh Material Scene Samplers Primitives RayTracer SpecTracer.

Section SpecDraws.
  Context {N : Num} {T : Trig N} {E : Ext} {RG : Gen N} {O : Geo}.
  Local Open Scope num_scope.

  (** the k-th number after the state g (from 0), and the state after k numbers *)
  Fixpoint after (g : G) (k : nat) : G := match k with 0 => g | S k => after (snd (gen g)) k end.
  Definition number (g : G) (k : nat) : F := fst (gen (after g k)).
  (** consecutive pairs of numbers, the first one at position k *)
  Fixpoint pairs (g : G) (k n : nat) : list (F * F) :=
    match n with 0 => [] | S n => (number g k, number g (S k)) :: pairs g (S (S k)) n end.

  (** sampling a material: the first number chooses the lobe; then either two numbers choose the diffuse direction, or the glossy
      lobe is tried with pairs of numbers until a direction is accepted (the first n pairs of those are rejected) *)
  Definition scatters_with (m : Material) (specularity : F) (normal e1 e2 p : Vec) (r : Ray) (g : G) (bsdf : Spectrum) (pdf : F) (r' : Ray) (g' : G) : Prop :=
    (number g 0 <? specularity = false /\ g' = after g 3 /\
     sample_bsdf m normal e1 e2 p r (mkWD (number g 0) [] (number g 1, number g 2)) = Ret (bsdf, pdf, r')) \/
    (number g 0 <? specularity = true /\ exists n, g' = after g (3 + 2 * n) /\
     forall d, sample_bsdf m normal e1 e2 p r (mkWD (number g 0) (pairs g 1 n) d) = Stuck /\
       sample_bsdf m normal e1 e2 p r (mkWD (number g 0) (pairs g 1 (S n)) d) = Ret (bsdf, pdf, r')).

  (** a direction towards a light takes two numbers *)
  Definition aims (light : Object) (p : Vec) (g : G) (dir : Vec) (g' : G) : Prop :=
    g' = after g 2 /\ exists target, dir = vnormalized (vsub target p) /\
    match ob_primitive light with
    | PTriangle t => target = uniform_sample_triangle (number g 0) (number g 1) (ta t) (tb t) (tc t)
    | PSphere b => let q := uniform_sample_sphere (number g 0) (number g 1) in let k := s_radius b * (f1 - flit 1 100000) in
        target = V3 (vx q * k + vx (s_centre b)) (vy q * k + vy (s_centre b)) (vz q * k + vz (s_centre b))
    | PCylinder _ => False
    | PSource d => let n := vnormalized (ds_direction d) in exists e, get_perpendicular n = Some e /\
        target = uniform_sample_disc (fun _ => e) (number g 0) (number g 1) (ftan (ds_angle d / f2)) (vadd p n) n
    end.

  (** ** direct light *)
  Section Direct.
    Variables (fuel : nat) (s : Scene) (m : Material) (r : Ray) (p normal e1 e2 : Vec) (n : nat).
    (** [k] samples of one light, from the state g to the state g'; a direction that misses the light is not counted *)
    Inductive lit_by (light : Object) : nat -> G -> list (option Spectrum) -> G -> Prop :=
    | lit_done g : lit_by light 0 g [] g
    | lit_miss k g dir g1 nodes nodes' xs g' : aims light p g dir g1 -> intersect_light fuel s light (mkRay3D p dir) nodes = Ret (None, nodes') ->
        lit_by light (S k) g1 xs g' -> lit_by light (S k) g xs g'
    | lit_unseen k g dir g1 nodes nodes' colour pdf xs g' : aims light p g dir g1 ->
        intersect_light fuel s light (mkRay3D p dir) nodes = Ret (Some (colour, pdf), nodes') -> (pdf <? flit 1 (10 ^ 18)) = true ->
        lit_by light k g1 xs g' -> lit_by light (S k) g (None :: xs) g'
    | lit_seen k g dir g1 nodes nodes' colour pdf bsdf xs g' : aims light p g dir g1 ->
        intersect_light fuel s light (mkRay3D p dir) nodes = Ret (Some (colour, pdf), nodes') -> (pdf <? flit 1 (10 ^ 18)) = false ->
        eval_bsdf is_parallel is_same_direction m normal e1 e2 r (vscale dir (- f1)) = Ret bsdf -> lit_by light k g1 xs g' ->
        lit_by light (S k) g (Some (sdivf (smul (smulf colour (fabs (vdot normal dir))) bsdf) (fofZ (Z.of_nat n) * pdf)) :: xs) g'.
    Inductive lit_by_all : list Object -> G -> list (option Spectrum) -> G -> Prop :=
    | all_done g : lit_by_all [] g [] g
    | all_more l ls g xs g1 ys g' : lit_by l n g xs g1 -> lit_by_all ls g1 ys g' -> lit_by_all (l :: ls) g (xs ++ ys) g'.
  End Direct.
  Definition lit_directly (fuel : nat) (s : Scene) (m : Material) (r : Ray) (n : nat) (g : G) (li : Spectrum) (g' : G) : Prop :=
    let e1 := i_dpdu (x_shading (r_interaction r)) in let e2 := i_dpdv (x_shading (r_interaction r)) in
    let p := vadd (point_of r) (vscale (normal_of r) (flit 1 1000)) in
    exists near g1 far, lit_by_all fuel s m r p (normal_of r) e1 e2 n (sc_lights s) g near g1 /\
      lit_by_all fuel s m r p (normal_of r) e1 e2 n (sc_distant_lights s) g1 far g' /\
      li = sadd (fold_left add_sample near BLACK) (fold_left add_sample far BLACK).

  Variables (fuel : nat) (c : Tracer) (s : Scene).
  (** a number is drawn for the count of ambient samples only beyond the first surface, and only when there can be any *)
  Definition counts (r : Ray) (g : G) (q : F) (g' : G) : Prop :=
    if Nat.eqb (max_depth c) 0 || Nat.eqb (n_ambient_samples c) 0 || Nat.eqb (r_depth r) 0 then q = f0 /\ g' = g else q = number g 0 /\ g' = after g 1.
  Definition specularity_of (m : Material) : F := match m with Plastic _ sp _ | Metal _ sp _ => sp | _ => f0 end.

  Inductive sees_with : Ray -> G -> Spectrum -> F -> G -> Prop :=
  | sw_darkness r g : meets_nothing fuel s r -> sc_sky s = None -> sees_with r g BLACK f0 g
  | sw_sky r g sky : meets_nothing fuel s r -> sc_sky s = Some sky -> sees_with r g (smulf (sky_tint s) (sky (direction (r_geometry r)))) (f1 / f2 / fpi) g
  | sw_edge r g i r1 : meets fuel s r i r1 -> side_hit r1 = NonApplicable -> sees_with r g BLACK f0 g
  | sw_light r g i r1 col t : meets fuel s r i r1 -> facing s r1 i (Light col) -> nth_error (a_tri (sc_arrays s)) i = Some t ->
      sees_with r g col (triangle_solid_angle_pdf t (point_of r1) (normal_of r1) (r_geometry r)) g
  | sw_too_far r g i r1 m : meets fuel s r i r1 -> facing s r1 i m -> ~ shines m -> (max_depth c < r_depth r)%nat -> sees_with r g BLACK f0 g
  | sw_through r g i r1 r2 m p1 p2 xs1 g1 xs2 g' : meets fuel s r i r1 -> facing s r1 i m -> reflects_only m -> (r_depth r <= max_depth c)%nat -> shaded s r1 i r2 ->
      get_possible_paths m (normal_of r1) (point_of r1) r2 = Ret (p1, p2) -> brings_with p1 g xs1 g1 -> brings_with p2 g1 xs2 g' ->
      sees_with r g (fold_left sadd (xs1 ++ xs2) BLACK) f0 g'
  | sw_surface r g i r1 r2 r3 m n q g1 direct g2 xs g' : meets fuel s r i r1 -> facing s r1 i m -> matte_or_glossy m -> (r_depth r <= max_depth c)%nat -> shaded s r1 i r2 ->
      counts r g q g1 -> get_n_ambient_samples r2 (n_ambient_samples c) (max_depth c) (limit_weight c) q = (n, r3) ->
      lit_directly fuel s m r3 (if Nat.eqb (r_depth r) 0 then n_shadow_samples c else 1%nat) g1 direct g2 ->
      ambient_with m r3 n g2 xs g' -> sees_with r g (sadd direct (average xs)) f0 g'
  (** one number decides whether a path counts as a bounce *)
  with brings_with : Path -> G -> list Spectrum -> G -> Prop :=
  | bw_none g : brings_with None g [] g
  | bw_some q v g l pdf g' : sees_with (if number g 0 <? count_specular_bounce c then deeper q else q) (after g 1) l pdf g' ->
      brings_with (Some (q, v)) g [smul l v] g'
  (** [k] ambient samples; one that ends at a light or the sky (a positive density) is discarded and drawn again *)
  with ambient_with : Material -> Ray -> nat -> G -> list Spectrum -> G -> Prop :=
  | aw_done m r g : ambient_with m r 0 g [] g
  | aw_light m r k g bsdf pdf r' g1 l lp g2 xs g' :
      scatters_with m (specularity_of m) (normal_of r) (i_dpdu (x_shading (r_interaction r))) (i_dpdv (x_shading (r_interaction r))) (point_of r) r g bsdf pdf r' g1 ->
      let cosine := fabs (vdot (normal_of r) (direction (r_geometry r'))) in
      sees_with (set_value (deeper r') (r_value r' * (radiance bsdf * cosine / pdf))) g1 l lp g2 -> (lp >? f0) = true ->
      ambient_with m r (S k) g2 xs g' -> ambient_with m r (S k) g xs g'
  | aw_sample m r k g bsdf pdf r' g1 l lp g2 xs g' :
      scatters_with m (specularity_of m) (normal_of r) (i_dpdu (x_shading (r_interaction r))) (i_dpdv (x_shading (r_interaction r))) (point_of r) r g bsdf pdf r' g1 ->
      let cosine := fabs (vdot (normal_of r) (direction (r_geometry r'))) in
      sees_with (set_value (deeper r') (r_value r' * (radiance bsdf * cosine / pdf))) g1 l lp g2 -> (lp >? f0) = false ->
      ambient_with m r k g2 xs g' -> ambient_with m r (S k) g (sdivf (smulf (smul l bsdf) cosine) pdf :: xs) g'.
End SpecDraws.
