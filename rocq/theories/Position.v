(** * internal/position_modeler.h, internal/position_modeler.cc *)
From Verif Require Export Wobble.

Section Position.
Context {A : Arith}.

(** The result of an absl::StatusOr<int>. *)
Inductive status_or_int : Type :=
| IOk (n : Z)
| IErr (e : status).

Definition msg_non_finite : string := "Non-finite or enormous inputs.".
Definition msg_too_far : string := "Input events are too far apart; requested more samples than max_outputs_per_call.".

(** position_modeler.cc:17-53 NumberOfStepsBetweenInputs. [min(ceil(..), INT_MAX)]
    is in double; the conversion to int is undefined for NaN. *)
Definition number_of_steps (tip : TipState) (start stop : Input)
    (sp : SamplingParams) (pp : PositionParams) : outcome status_or_int :=
  let delta_t := dsub (i_time stop) (i_time start) in
  let float_delta := d2f delta_t in
  to_int (dtoint (std_dmin (dceil (dmul (f2d float_delta) (sp_rate sp))) (dofZ INT_MAX)))
  (fun n_steps =>
    let delta_v := vscale float_delta (vdiv (vsub (i_pos stop) (t_pos tip)) (pp_spring pp)) in
    let end_v := vadd (t_vel tip) delta_v in
    match absolute_angle_to (t_vel tip) end_v with
    | None => Ret (IErr (InvalidArgument msg_non_finite))
    | Some angle =>
        let finish (n : Z) :=
          if Z.ltb (sp_max_outputs sp) n then Ret (IErr (InvalidArgument msg_too_far))
          else Ret (IOk n) in
        if dltb d0 (sp_max_angle sp) then
          to_int (dtoint (std_dmin (dceil (ddiv (f2d angle) (sp_max_angle sp))) (dofZ INT_MAX)))
          (fun steps_for_angle => finish (if Z.ltb n_steps steps_for_angle then steps_for_angle else n_steps))
        else finish n_steps
    end).

(** position_modeler.h:140-144. *)
Record PosModeler : Type := mkPos {
  pm_params : PositionParams;
  pm_state : TipState;
  pm_saved : option TipState
}.
Definition pos0 : PosModeler := mkPos default_position tip_default None.

(** position_modeler.h:43-47 Reset. *)
Definition pos_reset (state : TipState) (params : PositionParams) : PosModeler :=
  mkPos params state None.

(** position_modeler.cc:55-65 PositionModeler::Update, as a function on the tip
    state.  [delta_time.Value() * Vec2] narrows the double to float first. *)
Definition tip_update (p : PositionParams) (s : TipState) (anchor : Vec2) (time : D) : TipState :=
  let delta := d2f (dsub time (t_time s)) in
  let acc := vsub (vdiv (vsub anchor (t_pos s)) (pp_spring p)) (vscale (pp_drag p) (t_vel s)) in
  let vel := vadd (t_vel s) (vscale delta acc) in
  let pos := vadd (t_pos s) (vscale delta vel) in
  mkTip pos vel acc time.

(** position_modeler.h:69-80 UpdateAlongLinearPath: the loop body for
    i = i0, i0+1, ... ([k] iterations); the list is what is written to [output]. *)
Fixpoint path_loop (p : PositionParams) (s : TipState) (start_pos : Vec2) (start_time : D)
    (end_pos : Vec2) (end_time : D) (n : Z) (i : Z) (k : nat) : TipState * list TipState :=
  match k with
  | O => (s, [])
  | S k' =>
      let r := fdiv (fofZ i) (fofZ n) in
      let s' := tip_update p s (interp_v start_pos end_pos r) (interp_t start_time end_time r) in
      let '(sf, out) := path_loop p s' start_pos start_time end_pos end_time n (i + 1) k' in
      (sf, s' :: out)
  end.

(** position_modeler.h:73: with n_samples = INT_MAX the loop counter overflows
    (undefined behaviour) before the loop can end. *)
Definition update_along_path (p : PositionParams) (s : TipState) (start_pos : Vec2) (start_time : D)
    (end_pos : Vec2) (end_time : D) (n : Z) : outcome (TipState * list TipState) :=
  if Z.leb INT_MAX n then UB UB_signed_overflow
  else Ret (path_loop p s start_pos start_time end_pos end_time n 1 (Z.to_nat n)).

(** position_modeler.h:96-128 ModelEndOfStroke; [iters] counts down from
    max_iterations. *)
Fixpoint model_end_of_stroke (p : PositionParams) (s : TipState) (anchor : Vec2) (delta : D)
    (iters : nat) (stop : F) : TipState * list TipState :=
  match iters with
  | O => (s, [])
  | S k =>
      let cand := tip_update p s anchor (dadd (t_time s) delta) in
      if fltb (distance (t_pos s) (t_pos cand)) stop then (cand, [])
      else if fltb (nearest_point_on_segment (t_pos s) (t_pos cand) anchor) f1 then
        model_end_of_stroke p s anchor (dmul delta (ddiv (dofZ 1) (dofZ 2))) k stop
      else if fltb (distance (t_pos cand) anchor) stop then (cand, [cand])
      else
        let '(sf, out) := model_end_of_stroke p cand anchor delta k stop in
        (sf, cand :: out)
  end.

(** position_modeler.h:132 Save, 136-138 Restore. *)
Definition pos_save (m : PosModeler) : PosModeler := mkPos (pm_params m) (pm_state m) (Some (pm_state m)).
Definition pos_restore (m : PosModeler) : PosModeler :=
  match pm_saved m with
  | Some s => mkPos (pm_params m) s (pm_saved m)
  | None => m
  end.

Definition pos_with_state (m : PosModeler) (s : TipState) : PosModeler :=
  mkPos (pm_params m) s (pm_saved m).

End Position.
