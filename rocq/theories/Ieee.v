(** * The IEEE-754 instance of the arithmetic interface.

    float = binary32, double = binary64, round to nearest even, as implemented
    by Flocq's [BinarySingleNaN] (a single NaN: payloads are not observable in
    the modelled code).  Assumes what the C++ code assumes of every supported
    target: no excess precision (FLT_EVAL_METHOD = 0), no fused multiply-add
    contraction, default rounding mode. *)
From Coq Require Import ZArith Bool.
From Flocq Require Import Core.Zaux Core.Raux Core.Defs Core.FLX IEEE754.BinarySingleNaN.
From Verif Require Import Arith.
Open Scope Z_scope.

Definition float32 : Type := binary_float 24 128.
Definition float64 : Type := binary_float 53 1024.

Global Instance prec_gt_0_32 : FLX.Prec_gt_0 24 := eq_refl.
Global Instance prec_lt_emax_32 : Prec_lt_emax 24 128 := eq_refl.
Global Instance prec_gt_0_64 : FLX.Prec_gt_0 53 := eq_refl.
Global Instance prec_lt_emax_64 : Prec_lt_emax 53 1024 := eq_refl.

(** float -> double and double -> float conversions (round to nearest even). *)
Definition b32_to_b64 (x : float32) : float64 :=
  match x with
  | B754_zero s => B754_zero s
  | B754_infinity s => B754_infinity s
  | B754_nan => B754_nan
  | B754_finite s m e _ => binary_normalize 53 1024 _ _ mode_NE (cond_Zopp s (Zpos m)) e s
  end.
Definition b64_to_b32 (x : float64) : float32 :=
  match x with
  | B754_zero s => B754_zero s
  | B754_infinity s => B754_infinity s
  | B754_nan => B754_nan
  | B754_finite s m e _ => binary_normalize 24 128 _ _ mode_NE (cond_Zopp s (Zpos m)) e s
  end.

Definition is_inf {p e : Z} (x : binary_float p e) : bool :=
  match x with B754_infinity _ => true | _ => false end.

(** Conversion to int: the truncated value, if the value is finite and the
    truncation fits; undefined otherwise ([conv.fpint]). *)
Definition b_to_int {p e : Z} (x : binary_float p e) : option Z :=
  if is_finite x then
    let z := Btrunc x in
    if Z.leb INT_MIN z && Z.leb z INT_MAX then Some z else None
  else None.

(** std::hypot(float, float).  As in glibc's hypotf: +infinity if an argument is
    infinite, else sqrt(x*x + y*y) evaluated in double and rounded to float (x*x
    and y*y are exact in double). *)
Definition b_hypot (x y : float32) : float32 :=
  if is_inf x || is_inf y then B754_infinity false
  else
    let xd := b32_to_b64 x in
    let yd := b32_to_b64 y in
    b64_to_b32 (Bsqrt mode_NE (Bplus mode_NE (Bmult mode_NE xd xd) (Bmult mode_NE yd yd))).

(** M_PI / std::numbers::pi, the double nearest to pi: 884279719003555 * 2^-48. *)
Definition b_pi : float64 := binary_normalize 53 1024 _ _ mode_NE 884279719003555 (-48) false.

Definition finf : float32 := B754_infinity false.

(** The instance; [acosf] is the C library's acosf, about which theorems assume
    what they need in their statements. *)
Definition ieee (acosf : float32 -> float32) : Arith := {|
  F := float32;
  D := float64;
  fadd := Bplus mode_NE;
  fsub := Bminus mode_NE;
  fmul := Bmult mode_NE;
  fdiv := Bdiv mode_NE;
  fneg := @Bopp 24 128;
  fabs := @Babs 24 128;
  feqb := @Beqb 24 128;
  fltb := @Bltb 24 128;
  fleb := @Bleb 24 128;
  fisnan := @is_nan 24 128;
  fisinf := @is_inf 24 128;
  fofZ := fun z => binary_normalize 24 128 _ _ mode_NE z 0 false;
  fceil := Bnearbyint mode_UP;
  ftoint := @b_to_int 24 128;
  fhypot := b_hypot;
  facos := acosf;
  fltinf := fun x => Bltb x finf;
  fleinf := fun x => Bleb x finf;
  fmaxval := @Bmax_float 24 128 _ _;
  dadd := Bplus mode_NE;
  dsub := Bminus mode_NE;
  dmul := Bmult mode_NE;
  ddiv := Bdiv mode_NE;
  dneg := @Bopp 53 1024;
  deqb := @Beqb 53 1024;
  dltb := @Bltb 53 1024;
  dleb := @Bleb 53 1024;
  disnan := @is_nan 53 1024;
  disinf := @is_inf 53 1024;
  dofZ := fun z => binary_normalize 53 1024 _ _ mode_NE z 0 false;
  dceil := Bnearbyint mode_UP;
  dtoint := @b_to_int 53 1024;
  f2d := b32_to_b64;
  d2f := b64_to_b32;
  kPi := b_pi
|}.

(** Decimal-style literals for examples: the float/double nearest to p * 2^e. *)
Definition b32 (m e : Z) : float32 := binary_normalize 24 128 _ _ mode_NE m e false.
Definition b64 (m e : Z) : float64 := binary_normalize 53 1024 _ _ mode_NE m e false.
(** The double/float nearest to the rational p/q ((float) of a double literal
    when p/q is given in decimal). *)
Definition dlit (p q : Z) : float64 := Bdiv mode_NE (b64 p 0) (b64 q 0).
Definition flit (p q : Z) : float32 := Bdiv mode_NE (b32 p 0) (b32 q 0).
