(** * The arithmetic interface of the model, and the outcome monad.

    The C++ code computes in IEEE-754 [float] (binary32) and [double]
    (binary64), calls a handful of libm functions, and converts between these
    types and [int].  The model is written once, over the record [Arith] of
    exactly those operations, and is then instantiated twice:

    - [Ieee.v]   : bit-accurate binary32/binary64 (Flocq), round to nearest even;
    - [RealA.v]  : exact real numbers, for the properties that are claims about
                   the algorithm rather than about rounding.

    [Arith] is an ordinary record: every theorem quantifies over it, or over one
    of the two instances, in its statement. *)

From Coq Require Export ZArith List Bool String.
Export ListNotations.
Open Scope Z_scope.

(** Kinds of undefined behaviour that the modelled code could run into. *)
Inductive ub_kind : Type :=
| UB_float_to_int      (* float/double value not representable in int *)
| UB_signed_overflow   (* ++i or iter_num_++ past INT_MAX *)
| UB_empty_deque       (* front()/back()/pop_front() on an empty deque *)
| UB_index.            (* operator[] out of range *)

(** What running a piece of C++ code can do. [Diverge] is the result of a
    [while] loop that is still running after [fuel] iterations (the only loops
    without an a-priori bound are the two in [InterpAngle], utils.h:69-70). *)
Inductive outcome (X : Type) : Type :=
| Ret (x : X)
| UB (k : ub_kind)
| Diverge.
Arguments Ret {X} x.
Arguments UB {X} k.
Arguments Diverge {X}.

Definition obind {X Y : Type} (m : outcome X) (f : X -> outcome Y) : outcome Y :=
  match m with
  | Ret x => f x
  | UB k => UB k
  | Diverge => Diverge
  end.

Notation "'let*' x ':=' m 'in' f" := (obind m (fun x => f))
  (at level 200, x name, m at level 100, f at level 200, right associativity).
Notation "'let*' ' p ':=' m 'in' f" := (obind m (fun x => match x with p => f end))
  (at level 200, p pattern, m at level 100, f at level 200, right associativity).

(** INT_MAX / INT_MIN for the 32-bit [int] of every supported platform. *)
Definition INT_MAX : Z := 2147483647.
Definition INT_MIN : Z := -2147483648.

(** The operations of [float] ([F]) and [double] ([D]) used by the code.
    C++'s [a > b], [a >= b] are [ltb b a], [leb b a]. *)
Class Arith : Type := mkArith {
  F : Type;
  D : Type;
  fadd : F -> F -> F;
  fsub : F -> F -> F;
  fmul : F -> F -> F;
  fdiv : F -> F -> F;
  fneg : F -> F;
  fabs : F -> F;                     (* std::abs(float) *)
  feqb : F -> F -> bool;
  fltb : F -> F -> bool;
  fleb : F -> F -> bool;
  fisnan : F -> bool;                (* std::isnan *)
  fisinf : F -> bool;                (* std::isinf *)
  fofZ : Z -> F;                     (* integer -> float conversion, and the float literals 0.f, 1.f, ... *)
  fceil : F -> F;                    (* std::ceil(float) *)
  ftoint : F -> option Z;            (* static_cast<int>(float): None = undefined behaviour *)
  fhypot : F -> F -> F;              (* std::hypot(float, float) *)
  facos : F -> F;                    (* std::acos(float) *)
  fltinf : F -> bool;                (* x <  std::numeric_limits<float>::infinity() *)
  fleinf : F -> bool;                (* x <= std::numeric_limits<float>::infinity() *)
  fmaxval : F;                       (* std::numeric_limits<float>::max() *)
  dadd : D -> D -> D;
  dsub : D -> D -> D;
  dmul : D -> D -> D;
  ddiv : D -> D -> D;
  dneg : D -> D;
  deqb : D -> D -> bool;
  dltb : D -> D -> bool;
  dleb : D -> D -> bool;
  disnan : D -> bool;
  disinf : D -> bool;
  dofZ : Z -> D;
  dceil : D -> D;                    (* std::ceil(double) *)
  dtoint : D -> option Z;            (* double -> int: None = undefined behaviour *)
  f2d : F -> D;                      (* float -> double (exact) *)
  d2f : D -> F;                      (* double -> float (rounds) *)
  kPi : D                            (* numbers.h:30-34 *)
}.

(** Number literals. *)
Definition f0 {A : Arith} : F := fofZ 0.
Definition f1 {A : Arith} : F := fofZ 1.
Definition f2 {A : Arith} : F := fofZ 2.
Definition fm1 {A : Arith} : F := fofZ (-1).
Definition d0 {A : Arith} : D := dofZ 0.
Definition d1 {A : Arith} : D := dofZ 1.

(** C++ [std::min]/[std::max]/[std::clamp] are defined by comparisons
    (<algorithm>): min(a,b) = b < a ? b : a;  max(a,b) = a < b ? b : a;
    clamp(v,lo,hi) = v < lo ? lo : hi < v ? hi : v.  [std::fmax] returns the
    other argument if one is NaN. *)
Definition std_fmin {A : Arith} (a b : F) : F := if fltb b a then b else a.
Definition std_fmaxs {A : Arith} (a b : F) : F := if fltb a b then b else a.
Definition std_dmin {A : Arith} (a b : D) : D := if dltb b a then b else a.
Definition std_clamp {A : Arith} (v lo hi : F) : F :=
  if fltb v lo then lo else if fltb hi v then hi else v.
Definition std_fmax {A : Arith} (a b : F) : F :=
  if fisnan a then b else if fisnan b then a else if fltb a b then b else a.

(** Integer conversions that are undefined when the value does not fit. *)
Definition to_int {X : Type} (o : option Z) (k : Z -> outcome X) : outcome X :=
  match o with Some z => k z | None => UB UB_float_to_int end.
