(** * Colour: model of /repo/src/colour.rs

    `Spectrum<N>` (colour.rs:24) is modelled at N = N_CHANNELS = 3 (lib.rs:38), the only
    instantiation used by the crate.  The array is a record of three floats. *)
From Verif Require Export Num.

Section Colour.
  Context {N : Num}.
  Local Open Scope num_scope.

  (* colour.rs:24 *)
  Record Spectrum := mkS { sr : F; sg : F; sb : F }.

  (* component-wise application, the loop shared by all the operators below *)
  Definition smap (f : F -> F) (a : Spectrum) : Spectrum := mkS (f (sr a)) (f (sg a)) (f (sb a)).
  Definition smap2 (f : F -> F -> F) (a b : Spectrum) : Spectrum :=
    mkS (f (sr a) (sr b)) (f (sg a) (sg b)) (f (sb a) (sb b)).

  Definition ONE : Spectrum := mkS f1 f1 f1.               (* colour.rs:47 *)
  Definition BLACK : Spectrum := mkS f0 f0 f0.             (* colour.rs:48 *)
  Definition gray (v : F) : Spectrum := mkS v v v.         (* colour.rs:51-53, and From<Float> 356-360 *)

  Definition sadd := smap2 fadd.                           (* colour.rs:125-138; += 154-161 *)
  Definition ssub := smap2 fsub.                           (* colour.rs:139-152; -= 163-170 *)
  Definition smul := smap2 fmul.                           (* colour.rs:172-185; *= 202-209 *)
  Definition sdiv := smap2 fdiv.                           (* colour.rs:187-200; /= 211-218 *)
  Definition saddf (a : Spectrum) (x : F) := smap (fun v => v + x) a.   (* 222-234, 280-287 *)
  Definition ssubf (a : Spectrum) (x : F) := smap (fun v => v - x) a.   (* 236-249, 289-296 *)
  Definition smulf (a : Spectrum) (x : F) := smap (fun v => v * x) a.   (* 251-263, 298-305 *)
  Definition sdivf (a : Spectrum) (x : F) := smap (fun v => v / x) a.   (* 265-277, 307-314 *)
  Definition fsadd (x : F) (a : Spectrum) := smap (fun v => x + v) a.   (* 318-328 *)
  Definition fssub (x : F) (a : Spectrum) := smap (fun v => x - v) a.   (* 329-339 *)
  Definition fsmul (x : F) (a : Spectrum) := smap (fun v => x * v) a.   (* 340-350 *)
  Definition fsdiv (x : F) (a : Spectrum) := smap (fun v => x / v) a.   (* 351-361 *)

  (* powi (colour.rs:55-62) for the exponent 2, the only one used (glass.rs) *)
  Definition spow2 (a : Spectrum) := smap (fun v => v * v) a.

  (* colour.rs:73-80: `for v in self.0 { if v >= 1e-24 { return false } } true` *)
  Definition tiny24 : F := flit 1 (10 ^ 24).
  Definition is_black (a : Spectrum) : bool :=
    if sr a >=? tiny24 then false
    else if sg a >=? tiny24 then false
    else if sb a >=? tiny24 then false
    else true.

  (* colour.rs:25 and 84-91: zip with the coefficients, products summed from 0.0 *)
  Definition radiance (a : Spectrum) : F :=
    ((f0 + sr a * flit 265 1000) + sg a * flit 67 100) + sb a * flit 65 1000.

  (* colour.rs:95-97 *)
  Definition normalize (a : Spectrum) : Spectrum := sdivf a (radiance a).

  (* colour.rs:28 and 101-103 *)
  Definition WHITE_EFFICACY : F := flit 179 1.
  Definition luminance (a : Spectrum) : F := radiance a * WHITE_EFFICACY.

  (* colour.rs:106-115 *)
  Definition smax (a : Spectrum) : F :=
    let m := sr a in
    let m := if sg a >? m then sg a else m in
    if sb a >? m then sb a else m.
End Colour.
