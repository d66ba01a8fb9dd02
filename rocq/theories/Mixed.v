(** * Mixed: the samplers of /repo/src/samplers.rs in the precisions the program really uses

    Samplers.v models these functions with one float type.  The program draws `f32` numbers, computes sines, cosines and
    square roots in `f32` and casts the results to `Float` = `f64` (lib.rs:30-32; crate feature `float` off).  Here the
    `f32` parts are the definitions of Samplers.v in binary32 (NumSF32) and the casts are explicit.  The two trigonometric
    functions of `f32` are an argument, as elsewhere. *)
From Coq Require Import ZArith SpecFloat.
From Verif Require Import Num NumSF NumSF32 Geometry Samplers Colour.
Open Scope Z_scope.

(* Rust reference, "Numeric cast": between the two float types, to the nearest, ties to even; f32 to f64 is exact *)
Definition cast (prec emax : Z) (x : spec_float) : spec_float :=
  match x with S754_finite s m e => SpecFloat.binary_normalize prec emax (if s then Zneg m else Zpos m) e s | _ => x end.
Definition widen : @F NumSF32 -> @F NumSF := cast 53 1024.
Definition narrow : @F NumSF -> @F NumSF32 := cast 24 128.

(* what `rng.gen::<f32>()` returns (crate rand, Standard): 24 random bits over 2^24 *)
Definition draw32 (k : Z) : @F NumSF32 := SpecFloat.binary_normalize 24 128 k (-24) false.

Section Mixed.
  Context {T : Trig NumSF32}.
  Definition widen3 (v : @Vec NumSF32) : @Vec NumSF := V3 (widen (vx v)) (widen (vy v)) (widen (vz v)).

  (* samplers.rs:70-83: f32 throughout, after `radius as f32` *)
  Definition disc_mixed (r theta : @F NumSF32) (radius : @F NumSF) : @F NumSF32 * @F NumSF32 :=
    @uniform_sample_horizontal_disc NumSF32 T r theta (narrow radius).
  (* samplers.rs:128-133: f32 throughout (radius is the literal 1.), then `as Float` *)
  Definition cosine_mixed (r theta : @F NumSF32) : @Vec NumSF :=
    widen3 (@sample_cosine_weighted_horizontal_hemisphere NumSF32 T r theta).
  (* samplers.rs:135-168: local coordinates in f32, the change of frame in Float *)
  Definition hemisphere_mixed (rand1 rand2 : @F NumSF32) (e1 e2 normal : @Vec NumSF) : @Vec NumSF :=
    let sq := fsqrt (fsub f1 (fmul rand1 rand1)) in
    let pie2 := fmul (fmul f2 fpi) rand2 in
    @local_to_world NumSF e1 e2 normal vorigin (widen (fmul (fcos pie2) sq)) (widen (fmul (fsin pie2) sq)) (widen rand1).
  (* samplers.rs:170-184: heights and roots in f32, the two products in Float *)
  Definition sphere_mixed (rand1 rand2 : @F NumSF32) : @Vec NumSF :=
    let rand1 := fclamp rand1 TINY7 (fsub f1 TINY7) in
    let rand2 := fclamp rand2 TINY7 (fsub f1 TINY7) in
    let z := fsub f1 (fmul f2 rand1) in
    let aux := widen (fsqrt (fsub f1 (fmul z z))) in
    V3 (@fmul NumSF (widen (fcos (fmul (fmul f2 fpi) rand2))) aux)
       (@fmul NumSF (widen (fsin (fmul (fmul f2 fpi) rand2))) aux) (widen z).

  (* ward.rs:105-131, the diffuse branch: the drawn direction and its density; compare Material.sample_ward *)
  Definition matte_mixed {T64 : Trig NumSF} (normal e1 e2 : @Vec NumSF) (r theta : @F NumSF32) : @Vec NumSF * @F NumSF :=
    let local_dir := cosine_mixed r theta in
    let new_dir := vnormalized (@local_to_world NumSF e1 e2 normal vorigin (vx local_dir) (vy local_dir) (vz local_dir)) in
    (new_dir, @fdiv NumSF (vdot normal new_dir) fpi).
  (* ray_tracer.rs:330-331 and 344-346: what one sample adds to the light of a surface; compare RayTracer.ambient_loop *)
  Definition sample_term (normal new_dir : @Vec NumSF) (pdf : @F NumSF) (bsdf li : @Spectrum NumSF) : @Spectrum NumSF :=
    sdivf (smulf (smul li bsdf) (fabs (vdot normal new_dir))) pdf.
End Mixed.
