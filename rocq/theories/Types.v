(** * types.h / types.cc / internal_types.h: the data types. *)
From Verif Require Export Arith.

Section Types.
Context {A : Arith}.

(** types.h:31-46 [struct Vec2]. *)
Record Vec2 : Type := mkVec2 { vx : F; vy : F }.

Definition vzero : Vec2 := mkVec2 f0 f0.

(** types.h:235-237 operator==. *)
Definition veqb (a b : Vec2) : bool := feqb (vx a) (vx b) && feqb (vy a) (vy b).
(** types.h:240-242 operator+ (and operator+=, 254-258). *)
Definition vadd (a b : Vec2) : Vec2 := mkVec2 (fadd (vx a) (vx b)) (fadd (vy a) (vy b)).
(** types.h:243-245 operator- (and operator-=, 259-263). *)
Definition vsub (a b : Vec2) : Vec2 := mkVec2 (fsub (vx a) (vx b)) (fsub (vy a) (vy b)).
(** types.h:246-248 operator*(float, Vec2); 249 operator*(Vec2, float) calls it
    with the same argument order of the products ([scalar * v.x]). *)
Definition vscale (k : F) (v : Vec2) : Vec2 := mkVec2 (fmul k (vx v)) (fmul k (vy v)).
(** types.h:264-268 operator*= multiplies in the other order ([lhs.x *= scalar]). *)
Definition vscale_assign (v : Vec2) (k : F) : Vec2 := mkVec2 (fmul (vx v) k) (fmul (vy v) k).
(** types.h:250-252 operator/ (and operator/=, 269-273). *)
Definition vdiv (v : Vec2) (k : F) : Vec2 := mkVec2 (fdiv (vx v) k) (fdiv (vy v) k).
(** types.h:36 Magnitude. *)
Definition magnitude (v : Vec2) : F := fhypot (vx v) (vy v).
(** std::isfinite *)
Definition fisfinite (x : F) : bool := negb (fisnan x) && negb (fisinf x).
Definition disfinite (x : D) : bool := negb (disnan x) && negb (disinf x).
(** types.h:45 IsFinite. *)
Definition vfinite (v : Vec2) : bool := fisfinite (vx v) && fisfinite (vy v).
(** types.cc:23 DotProduct. *)
Definition vdot (a b : Vec2) : F := fadd (fmul (vx a) (vx b)) (fmul (vy a) (vy b)).

(** types.cc:25-38 AbsoluteAngleTo; [None] is the InvalidArgument status. *)
Definition absolute_angle_to (this other : Vec2) : option F :=
  if negb (vfinite this) || negb (vfinite other) then None
  else
    let m := magnitude this in
    let om := magnitude other in
    if feqb m f0 || feqb om f0 then Some f0
    else
      let u := vdiv this m in
      let ou := vdiv other om in
      let dot := vdot u ou in
      Some (facos (std_clamp dot fm1 f1)).

(** types.h:153 EventType.  A C++ enum class can hold any int, hence [EOther]. *)
Inductive event_type : Type := EDown | EMove | EUp | EOther (z : Z).

Definition event_eqb (a b : event_type) : bool :=
  match a, b with
  | EDown, EDown | EMove, EMove | EUp, EUp => true
  | EOther x, EOther y => Z.eqb x y
  | _, _ => false
  end.

(** types.h:149-177 [struct Input]. Time is a wrapped double (types.h:114-122),
    so are Durations (types.h:74-82): both are [D] here, and their operators
    (types.h:279-370) are the corresponding double operations. *)
Record Input : Type := mkInput {
  i_event : event_type;
  i_pos : Vec2;
  i_time : D;
  i_pressure : F;
  i_tilt : F;
  i_orient : F
}.

(** types.h:376-380 operator==(Input, Input). *)
Definition input_eqb (a b : Input) : bool :=
  event_eqb (i_event a) (i_event b) && veqb (i_pos a) (i_pos b) &&
  deqb (i_time a) (i_time b) && feqb (i_pressure a) (i_pressure b) &&
  feqb (i_tilt a) (i_tilt b) && feqb (i_orient a) (i_orient b).

(** types.h:203-217 [struct Result]. *)
Record Result : Type := mkResult {
  r_pos : Vec2;
  r_vel : Vec2;
  r_acc : Vec2;
  r_time : D;
  r_pressure : F;
  r_tilt : F;
  r_orient : F
}.

(** internal_types.h:29-34 [struct TipState]. *)
Record TipState : Type := mkTip {
  t_pos : Vec2;
  t_vel : Vec2;
  t_acc : Vec2;
  t_time : D
}.

Definition tip_default : TipState := mkTip vzero vzero vzero d0.

(** absl::Status, reduced to its code and (for error statuses) the fixed part of
    its message; the values substituted into messages are not modelled. *)
Inductive status : Type :=
| OkStatus
| FailedPrecondition (msg : string)
| InvalidArgument (msg : string).

Definition status_ok (s : status) : bool :=
  match s with OkStatus => true | _ => false end.

(** The RETURN_IF_ERROR macro (types.cc:15-18, params.cc:28-31). *)
Definition and_then (s : status) (k : status) : status :=
  match s with OkStatus => k | e => e end.

(** validation.h:8-22 ValidateIsFiniteNumber, for float and for double. *)
Definition validate_finite_f (v : F) (label : string) : status :=
  if fisnan v then InvalidArgument (label ++ " is NaN")
  else if fisinf v then InvalidArgument (label ++ " is infinite")
  else OkStatus.
Definition validate_finite_d (v : D) (label : string) : status :=
  if disnan v then InvalidArgument (label ++ " is NaN")
  else if disinf v then InvalidArgument (label ++ " is infinite")
  else OkStatus.

(** types.cc:45-61 ValidateInput. *)
Definition validate_input (i : Input) : status :=
  match i_event i with
  | EOther _ => InvalidArgument "Unknown Input.event_type."
  | _ =>
      and_then (validate_finite_f (vx (i_pos i)) "Input.position.x")
      (and_then (validate_finite_f (vy (i_pos i)) "Input.position.y")
      (validate_finite_d (i_time i) "Input.time"))
  end.

End Types.
