(** * NumR: real-number semantics of the float operations.  *)
From Coq Require Export Reals Lra Psatz.
From Coq Require Import R_Ifp Ratan.
From Verif Require Export Num.
Open Scope R_scope.

Definition Rltb (x y : R) : bool := if Rlt_dec x y then true else false.
Definition Rleb (x y : R) : bool := if Rle_dec x y then true else false.
Definition Reqb (x y : R) : bool := if Req_EM_T x y then true else false.
(** truncation towards zero, saturating in [lo,hi] *)
Definition Rtrunc (lo hi : Z) (x : R) : Z :=
  let t := if Rle_dec 0 x then Int_part x else (- Int_part (- x))%Z in
  Z.max lo (Z.min hi t).

(** powf on non-negative bases: 0^0 = 1, 0^y = 0, x^y = exp (y ln x) *)
Definition Rpowf (x y : R) : R :=
  if Req_EM_T x 0 then (if Req_EM_T y 0 then 1 else 0) else Rpower x y.

#[export] Instance NumR : Num := {
  F := R; fadd := Rplus; fsub := Rminus; fmul := Rmult; fdiv := Rdiv;
  fneg := Ropp; fabs := Rabs; fsqrt := R_sqrt.sqrt;
  fltb := Rltb; fleb := Rleb; feqb := Reqb;
  flit := fun n d => (IZR n / IZR (Zpos d))%R;
  fofZ := IZR; ftrunc := Rtrunc
}.

#[export] Instance TrigR : Trig NumR := {
  fpi := PI; fcos := cos; fsin := sin; ftan := tan; facos := acos; fexp := exp; fln := ln; fpow := Rpowf
}.

Lemma Rltb_spec x y : reflect (x < y) (Rltb x y).
Proof. unfold Rltb; destruct (Rlt_dec x y); constructor; assumption. Qed.
Lemma Rleb_spec x y : reflect (x <= y) (Rleb x y).
Proof. unfold Rleb; destruct (Rle_dec x y); constructor; assumption. Qed.
Lemma Reqb_spec x y : reflect (x = y) (Reqb x y).
Proof. unfold Reqb; destruct (Req_EM_T x y); constructor; assumption. Qed.

Lemma Rltb_true x y : Rltb x y = true <-> x < y.
Proof. destruct (Rltb_spec x y); split; intros; try easy. Qed.
Lemma Rltb_false x y : Rltb x y = false <-> y <= x.
Proof. destruct (Rltb_spec x y); split; intros; try easy; lra. Qed.
Lemma Rleb_true x y : Rleb x y = true <-> x <= y.
Proof. destruct (Rleb_spec x y); split; intros; try easy. Qed.
Lemma Rleb_false x y : Rleb x y = false <-> y < x.
Proof. destruct (Rleb_spec x y); split; intros; try easy; lra. Qed.
Lemma Reqb_true x y : Reqb x y = true <-> x = y.
Proof. destruct (Reqb_spec x y); split; intros; try easy. Qed.
Lemma Reqb_false x y : Reqb x y = false <-> x <> y.
Proof. destruct (Reqb_spec x y); split; intros; try easy. Qed.

(** expose the real operations *)
Ltac rsimp :=
  cbn [F fadd fsub fmul fdiv fneg fabs fsqrt fltb fleb feqb flit fofZ ftrunc
       fpi fcos fsin ftan facos fexp fln fpow NumR TrigR] in *;
  unfold f0, f1, f2 in *;
  cbn [F fadd fsub fmul fdiv fneg fabs fsqrt fltb fleb feqb flit fofZ ftrunc
       fpi fcos fsin ftan facos fexp fln fpow NumR TrigR] in *.

Ltac no_cmp t :=
  lazymatch t with
  | context [Rltb _ _] => fail
  | context [Rleb _ _] => fail
  | context [Reqb _ _] => fail
  | _ => idtac
  end.
(** turn an innermost boolean comparison occurring in the goal into a case split *)
Ltac rcase :=
  match goal with
  | |- context [Rltb ?x ?y] => no_cmp x; no_cmp y; destruct (Rltb_spec x y)
  | |- context [Rleb ?x ?y] => no_cmp x; no_cmp y; destruct (Rleb_spec x y)
  | |- context [Reqb ?x ?y] => no_cmp x; no_cmp y; destruct (Reqb_spec x y)
  end; cbv iota.
