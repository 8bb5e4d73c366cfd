(** * The exact-real instance of the arithmetic interface.

    float and double are both R, operations are exact, hypot is the Euclidean
    norm, acos the real arc cosine, pi is pi.  There are no NaNs or infinities.
    Division by zero is [Rdiv], which in this library gives 0 (the code: an
    infinity or NaN): theorems that could meet it exclude it by a hypothesis or
    say so in their comments. *)
From Coq Require Import ZArith Bool Reals Ratan.
From Flocq Require Import Core.Raux.
From Verif Require Import Arith.
Open Scope R_scope.

Definition Reqb (x y : R) : bool := Req_bool x y.
Definition Rltb (x y : R) : bool := Rlt_bool x y.
Definition Rleb (x y : R) : bool := Rle_bool x y.

Definition R_to_int (x : R) : option Z :=
  let z := Ztrunc x in
  if Z.leb INT_MIN z && Z.leb z INT_MAX then Some z else None.

Definition real_arith : Arith := {|
  F := R;
  D := R;
  fadd := Rplus;
  fsub := Rminus;
  fmul := Rmult;
  fdiv := Rdiv;
  fneg := Ropp;
  fabs := Rabs;
  feqb := Reqb;
  fltb := Rltb;
  fleb := Rleb;
  fisnan := fun _ => false;
  fisinf := fun _ => false;
  fofZ := IZR;
  fceil := fun x => IZR (Zceil x);
  ftoint := R_to_int;
  fhypot := fun x y => sqrt (x * x + y * y);
  facos := acos;
  fltinf := fun _ => true;
  fleinf := fun _ => true;
  fmaxval := IZR (2 ^ 128 - 2 ^ 104);
  dadd := Rplus;
  dsub := Rminus;
  dmul := Rmult;
  ddiv := Rdiv;
  dneg := Ropp;
  deqb := Reqb;
  dltb := Rltb;
  dleb := Rleb;
  disnan := fun _ => false;
  disinf := fun _ => false;
  dofZ := IZR;
  dceil := fun x => IZR (Zceil x);
  dtoint := R_to_int;
  f2d := fun x => x;
  d2f := fun x => x;
  kPi := PI
|}.
