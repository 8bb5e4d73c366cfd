(** * internal/utils.h, internal/utils.cc *)
From Verif Require Export Params.

Section Utils.
Context {A : Arith}.

(** utils.h:33 Clamp01. *)
Definition clamp01 (v : F) : F := std_clamp v f0 f1.

(** utils.h:38-43 Normalize01. *)
Definition normalize01 (start stop value : F) : F :=
  if feqb start stop then (if fltb start value then f1 else f0)
  else clamp01 (fdiv (fsub value start) (fsub stop start)).

(** utils.h:47-50 Interp, at ValueType = float, Vec2, Time.  For Vec2 the
    product is operator*(Vec2, float); for Time it is Duration * double, with
    the float interpolation value promoted to double. *)
Definition interp_f (start stop : F) (amount : F) : F :=
  fadd start (fmul (fsub stop start) (clamp01 amount)).
Definition interp_v (start stop : Vec2) (amount : F) : Vec2 :=
  vadd start (vscale (clamp01 amount) (vsub stop start)).
Definition interp_t (start stop : D) (amount : F) : D :=
  dadd start (dmul (dsub stop start) (f2d (clamp01 amount))).

(** utils.h:56-61 InverseLerp. *)
Definition inverse_lerp (a b value : F) : F :=
  if feqb (fsub b a) f0 then f0 else fdiv (fsub value a) (fsub b a).

(** [2 * kPi] (a double). *)
Definition twoPi : D := dmul (dofZ 2) kPi.

(** utils.h:68-72, the lambda normalize_angle: its two while loops, each run for
    at most [fuel] iterations.  [angle += 2 * kPi] is computed in double and
    rounded back to float; [angle > 2 * kPi] compares in double. *)
Fixpoint norm_up (fuel : nat) (angle : F) : outcome F :=
  if fltb angle f0 then
    match fuel with
    | O => Diverge
    | S n => norm_up n (d2f (dadd (f2d angle) twoPi))
    end
  else Ret angle.
Fixpoint norm_down (fuel : nat) (angle : F) : outcome F :=
  if dltb twoPi (f2d angle) then
    match fuel with
    | O => Diverge
    | S n => norm_down n (d2f (dsub (f2d angle) twoPi))
    end
  else Ret angle.
Definition normalize_angle (fuel : nat) (angle : F) : outcome F :=
  let* a := norm_up fuel angle in norm_down fuel a.

(** utils.h:67-83 InterpAngle. *)
Definition interp_angle (fuel : nat) (start stop amount : F) : outcome F :=
  let* start := normalize_angle fuel start in
  let* stop := normalize_angle fuel stop in
  let delta := fsub stop start in
  let stop :=
    if dltb (f2d delta) (dneg kPi) then d2f (dadd (f2d stop) twoPi)
    else if dltb kPi (f2d delta) then d2f (dsub (f2d stop) twoPi)
    else stop in
  normalize_angle fuel (interp_f start stop amount).

(** utils.cc:12-31 InterpResult. *)
Definition interp_result (fuel : nat) (start stop : Result) (amount : F) : outcome Result :=
  let* orient :=
    (if fltb (r_orient start) f0 || fltb (r_orient stop) f0 then Ret fm1
     else interp_angle fuel (r_orient start) (r_orient stop) amount) in
  Ret (mkResult
    (interp_v (r_pos start) (r_pos stop) amount)
    (interp_v (r_vel start) (r_vel stop) amount)
    (interp_v (r_acc start) (r_acc stop) amount)
    (interp_t (r_time start) (r_time stop) amount)
    (if fltb (r_pressure start) f0 || fltb (r_pressure stop) f0 then fm1
     else interp_f (r_pressure start) (r_pressure stop) amount)
    (if fltb (r_tilt start) f0 || fltb (r_tilt stop) f0 then fm1
     else interp_f (r_tilt start) (r_tilt stop) amount)
    orient).

(** utils.h:95-97 Distance. *)
Definition distance (start stop : Vec2) : F := magnitude (vsub stop start).

(** utils.h:102-110 NearestPointOnSegment. *)
Definition nearest_point_on_segment (a b point : Vec2) : F :=
  if veqb a b then f0
  else
    let seg := vsub b a in
    let proj := vsub point a in
    clamp01 (fdiv (vdot proj seg) (vdot seg seg)).

(** utils.cc:36 orthogonal. *)
Definition orthogonal (v : Vec2) : Vec2 := mkVec2 (fneg (vy v)) (vx v).

(** utils.cc:34 kCosineHalfDegree: the double literal 0.99996192 rounded to float. *)
Definition kCosineHalfDegree : F := d2f (ddiv (dofZ 99996192) (dofZ 100000000)).

(** utils.cc:70 unit_vec. *)
Definition unit_vec (v : Vec2) : Vec2 := vdiv v (magnitude v).

(** utils.cc:33-78 GetStrokeNormal. *)
Definition get_stroke_normal (tip : TipState) (prev_time : D) : option Vec2 :=
  let vm := magnitude (t_vel tip) in
  let am := magnitude (t_acc tip) in
  if feqb vm f0 && feqb am f0 then None
  else if feqb vm f0 then Some (orthogonal (t_acc tip))
  else if feqb am f0 then Some (orthogonal (t_vel tip))
  else if fltb (fmul (fmul kCosineHalfDegree vm) am) (fabs (vdot (t_vel tip) (t_acc tip))) then
    Some (orthogonal (t_vel tip))
  else
    let dt := dsub (t_time tip) prev_time in
    let dir := vadd (unit_vec (t_vel tip))
                    (unit_vec (vadd (t_vel tip) (vscale (d2f dt) (t_acc tip)))) in
    Some (orthogonal dir).

(** utils.cc:84 cross. *)
Definition cross (a b : Vec2) : F := fsub (fmul (vx a) (vy b)) (fmul (vy a) (vx b)).

(** utils.cc:80-94 ProjectToSegmentAlongNormal. *)
Definition project_to_segment_along_normal (a b position normal : Vec2) : option F :=
  let v := vsub b a in
  let det := cross normal v in
  if feqb det f0 then None
  else
    let w := vsub a position in
    let param := fdiv (cross w normal) det in
    if fltb param f0 || fltb f1 param then None else Some param.

End Utils.
