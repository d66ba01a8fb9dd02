(** * NumSF32: binary32 semantics, for the crate feature `float` (lib.rs:26-28).  Only used to compute witnesses. *)
From Coq Require Import SpecFloat.
From Verif Require Export NumSF.
Open Scope Z_scope.
Definition sf32_ofZ (z : Z) : spec_float := binary_normalize 24 128 z 0 false.
Definition sf32_lit (n : Z) (d : positive) : spec_float :=
  match n with
  | Z0 => S754_zero false
  | Zpos m => let '(q, e, l) := SFdiv_core_binary 24 128 (Zpos m) 0 (Zpos d) 0 in binary_round_aux 24 128 false q e l
  | Zneg m => let '(q, e, l) := SFdiv_core_binary 24 128 (Zpos m) 0 (Zpos d) 0 in binary_round_aux 24 128 true q e l
  end.
Definition NumSF32 : Num := {|
  F := spec_float;
  fadd := SFadd 24 128; fsub := SFsub 24 128; fmul := SFmul 24 128;
  fdiv := SFdiv 24 128; fneg := SFopp; fabs := SFabs; fsqrt := SFsqrt 24 128;
  fltb := SFltb; fleb := SFleb; feqb := SFeqb;
  flit := sf32_lit; fofZ := sf32_ofZ; ftrunc := sf_trunc |}.
