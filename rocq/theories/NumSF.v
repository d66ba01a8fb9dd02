(** * NumSF: bit-exact binary64 semantics (Coq.Floats.SpecFloat, pure Gallina).

    Used only to compute witnesses: no axiom and no primitive float is involved.
    Rounding is to nearest, ties to even, as in the default IEEE 754 mode. *)
From Coq Require Import SpecFloat.
From Verif Require Export Num.
Open Scope Z_scope.

Definition prec : Z := 53.
Definition emax : Z := 1024.

Definition sf_ofZ (z : Z) : spec_float := binary_normalize prec emax z 0 false.
Definition sf_lit (n : Z) (d : positive) : spec_float :=
  match n with
  | Z0 => S754_zero false
  | Zpos m =>
     let '(q, e, l) := SFdiv_core_binary prec emax (Zpos m) 0 (Zpos d) 0 in
     binary_round_aux prec emax false q e l
  | Zneg m =>
     let '(q, e, l) := SFdiv_core_binary prec emax (Zpos m) 0 (Zpos d) 0 in
     binary_round_aux prec emax true q e l
  end.
(** Rust float-to-integer `as` cast: truncation towards zero, saturation, NaN to 0 *)
Definition sf_trunc (lo hi : Z) (x : spec_float) : Z :=
  match x with
  | S754_zero _ => 0
  | S754_nan => 0
  | S754_infinity false => hi
  | S754_infinity true => lo
  | S754_finite s m e =>
      let a := if e >=? 0 then Zpos m * 2 ^ e else Zpos m / 2 ^ (- e) in
      Z.max lo (Z.min hi (if s then - a else a))
  end.

Definition NumSF : Num := {|
  F := spec_float;
  fadd := SFadd prec emax; fsub := SFsub prec emax; fmul := SFmul prec emax;
  fdiv := SFdiv prec emax; fneg := SFopp; fabs := SFabs; fsqrt := SFsqrt prec emax;
  fltb := SFltb; fleb := SFleb; feqb := SFeqb;
  flit := sf_lit; fofZ := sf_ofZ; ftrunc := sf_trunc |}.

(** smoke tests: 0.1 + 0.2 <> 0.3 in binary64, 1/3 rounds down, NaN is unordered *)
Example sf_01 : feqb (Num := NumSF) (fadd (Num := NumSF) (sf_lit 1 10) (sf_lit 2 10)) (sf_lit 3 10) = false.
Proof. vm_compute. reflexivity. Qed.
Example sf_third : sf_lit 1 3 = S754_finite false 6004799503160661 (-54).
Proof. vm_compute. reflexivity. Qed.
Example sf_nan : fleb (Num := NumSF) S754_nan (sf_lit 1 1) = false.
Proof. vm_compute. reflexivity. Qed.
