(** * Num: the floating-point operations used by the renderer

    Models `pub type Float = f64;` (/repo/src/lib.rs:22-33).  Every function of the
    model that computes with floats is parametric in this record, so that a theorem
    proved "for every [Num]" holds for IEEE binary64 (NaN, infinities and rounding
    included), while geometric and optical theorems are stated for the instance
    [NumR] of exact real arithmetic (file NumR.v) and bit-exact witnesses are computed in
    the instance [NumSF] (file NumSF.v). *)
From Coq Require Export ZArith List Bool Arith Lia.
Export ListNotations.

Class Num := {
  F : Type;
  fadd : F -> F -> F;
  fsub : F -> F -> F;
  fmul : F -> F -> F;
  fdiv : F -> F -> F;
  fneg : F -> F;
  fabs : F -> F;                 (* f64::abs   *)
  fsqrt : F -> F;                (* f64::sqrt  *)
  fltb : F -> F -> bool;         (* <  (false on NaN) *)
  fleb : F -> F -> bool;         (* <= (false on NaN) *)
  feqb : F -> F -> bool;         (* == (false on NaN) *)
  flit : Z -> positive -> F;     (* the literal n/d, rounded *)
  fofZ : Z -> F;                 (* integer `as Float` *)
  ftrunc : Z -> Z -> F -> Z      (* float `as` integer type with range [lo,hi]: truncates
                                    towards zero and saturates; NaN gives 0 *)
}.

(** Transcendental functions (only used under real-number semantics). *)
Class Trig (N : Num) := {
  fpi : F;                       (* crate::PI, lib.rs:27,32 *)
  fcos : F -> F;
  fsin : F -> F;
  ftan : F -> F;
  facos : F -> F;
  fexp : F -> F;
  fln : F -> F;
  fpow : F -> F -> F             (* f64::powf *)
}.

Declare Scope num_scope.
Delimit Scope num_scope with num.
Infix "+" := fadd : num_scope.
Infix "-" := fsub : num_scope.
Infix "*" := fmul : num_scope.
Infix "/" := fdiv : num_scope.
Notation "- x" := (fneg x) : num_scope.
Infix "<?" := fltb : num_scope.
Infix "<=?" := fleb : num_scope.
Infix "=?" := feqb : num_scope.
(* a > b is b < a, a >= b is b <= a, as in IEEE 754 *)
Notation "x >? y" := (fltb y x) : num_scope.
Notation "x >=? y" := (fleb y x) : num_scope.

Section Lits.
  Context {N : Num}.
  Definition f0 : F := flit 0 1.
  Definition f1 : F := flit 1 1.
  Definition f2 : F := flit 2 1.
  Definition fmaxb (a b : F) : F := if fltb a b then b else a.
  Definition fminb (a b : F) : F := if fltb b a then b else a.
  Definition fclamp (x lo hi : F) : F := if fltb x lo then lo else if fltb hi x then hi else x.  (* f64::clamp *)
End Lits.

(** Outcome of a Rust function that may panic. *)
Inductive res (A : Type) : Type :=
| Ok_ : A -> res A
| Panic : res A.
Arguments Ok_ {A} _.
Arguments Panic {A}.

Definition rbind {A B} (x : res A) (f : A -> res B) : res B :=
  match x with Ok_ a => f a | Panic => Panic end.
Notation "'do' x <- e ;; f" := (rbind e (fun x => f))
  (at level 200, x pattern, e at level 100, f at level 200, right associativity).

Definition of_opt {A} (x : option A) : res A :=
  match x with Some a => Ok_ a | None => Panic end.

(** Outcome of a computation run with fuel: [Ret] a result, [Crash] a Rust panic, [Stuck] the fuel
    ran out (the code would still be running). *)
Inductive outcome (A : Type) : Type :=
| Ret : A -> outcome A
| Crash : outcome A
| Stuck : outcome A.
Arguments Ret {A} _.
Arguments Crash {A}.
Arguments Stuck {A}.
Definition obind {A B} (x : outcome A) (f : A -> outcome B) : outcome B :=
  match x with Ret a => f a | Crash => Crash | Stuck => Stuck end.
Notation "'run' x <- e ;; f" := (obind e (fun x => f))
  (at level 200, x pattern, e at level 100, f at level 200, right associativity).
Definition ret_opt {A} (x : option A) : outcome A :=
  match x with Some a => Ret a | None => Crash end.
