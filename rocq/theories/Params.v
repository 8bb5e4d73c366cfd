(** * params.h / params.cc / validation.h: parameters and their validation. *)
From Verif Require Export Types.

Section Params.
Context {A : Arith}.

(** params.h:60-109. *)
Record LoopParams : Type := mkLoopParams {
  lp_enabled : bool;
  lp_speed_lower : F;
  lp_speed_upper : F;
  lp_strength_lower : F;   (* interpolation_strength_at_speed_lower_bound *)
  lp_strength_upper : F;   (* interpolation_strength_at_speed_upper_bound *)
  lp_window : D;           (* min_speed_sampling_window *)
  lp_min_samples : Z       (* min_discrete_speed_samples *)
}.

(** params.h:47-112. *)
Record PositionParams : Type := mkPositionParams {
  pp_spring : F;           (* spring_mass_constant *)
  pp_drag : F;             (* drag_constant *)
  pp_loop : LoopParams
}.

(** params.h:115-145. *)
Record SamplingParams : Type := mkSamplingParams {
  sp_rate : D;             (* min_output_rate *)
  sp_stop : F;             (* end_of_stroke_stopping_distance *)
  sp_max_iter : Z;         (* end_of_stroke_max_iterations *)
  sp_max_outputs : Z;      (* max_outputs_per_call *)
  sp_max_angle : D         (* max_estimated_angle_to_traverse_per_input *)
}.

(** params.h:155-189. *)
Record StylusParams : Type := mkStylusParams {
  sy_max_samples : Z;      (* max_input_samples *)
  sy_normal : bool;        (* use_stroke_normal_projection *)
  sy_min_samples : Z;      (* min_input_samples *)
  sy_min_duration : D      (* min_sample_duration *)
}.

(** params.h:193-213. *)
Record WobbleParams : Type := mkWobbleParams {
  wp_enabled : bool;
  wp_timeout : D;
  wp_floor : F;
  wp_ceiling : F
}.

(** params.h:273-306. *)
Record ConfidenceParams : Type := mkConfidenceParams {
  cp_samples : Z;          (* desired_number_of_samples *)
  cp_max_dist : F;         (* max_estimation_distance *)
  cp_min_speed : F;        (* min_travel_speed *)
  cp_max_speed : F;        (* max_travel_speed *)
  cp_max_dev : F;          (* max_linear_deviation *)
  cp_baseline : F          (* baseline_linearity_confidence *)
}.

(** params.h:230-308. *)
Record KalmanParams : Type := mkKalmanParams {
  kp_process : D;
  kp_measure : D;
  kp_min_stable : Z;
  kp_max_times : Z;        (* max_time_samples *)
  kp_catchup : F;          (* min_catchup_velocity *)
  kp_acc_weight : F;
  kp_jerk_weight : F;
  kp_interval : D;         (* prediction_interval *)
  kp_conf : ConfidenceParams
}.

(** params.h:314-316 (std::variant). *)
Inductive PredictionParams : Type :=
| PredStrokeEnd
| PredKalman (k : KalmanParams)
| PredDisabled.

(** params.h:324-331 (ExperimentalParams is an empty struct). *)
Record StrokeModelParams : Type := mkParams {
  p_wobble : WobbleParams;
  p_position : PositionParams;
  p_sampling : SamplingParams;
  p_stylus : StylusParams;
  p_prediction : PredictionParams
}.

(** Default member initialisers. *)
Definition default_loop : LoopParams :=                     (* params.h:68-108 *)
  mkLoopParams false fm1 fm1 fm1 fm1 (dofZ (-1)) (-1).
Definition default_position : PositionParams :=             (* params.h:50,54,111 *)
  mkPositionParams (fdiv (fofZ 11) (fofZ 32400)) (fofZ 72) default_loop.
Definition default_sampling : SamplingParams :=             (* params.h:120-144 *)
  mkSamplingParams (dofZ (-1)) fm1 20 100000 (dofZ (-1)).
Definition default_stylus : StylusParams :=                 (* params.h:162-188 *)
  mkStylusParams 10 false (-1) (dofZ (-1)).
Definition default_wobble : WobbleParams :=                 (* params.h:197-212 *)
  mkWobbleParams true (dofZ (-1)) fm1 fm1.
Definition default_params : StrokeModelParams :=            (* params.h:324-331 *)
  mkParams default_wobble default_position default_sampling default_stylus PredStrokeEnd.

(** params.cc:40-44. *)
Definition kMaxEndOfStrokeMaxIterations : Z := 1000.
Definition kMaxDiscreteSamples : Z := 10000.
Definition kMaxSamplingWindow : D := dofZ 10000.

(** validation.h:24-37 ValidateGreaterThanZero<float/double/int>. *)
Definition validate_gt0_f (v : F) (label : string) : status :=
  and_then (validate_finite_f v label)
    (if fleb v f0 then InvalidArgument (label ++ " must be greater than zero.") else OkStatus).
Definition validate_gt0_d (v : D) (label : string) : status :=
  and_then (validate_finite_d v label)
    (if dleb v d0 then InvalidArgument (label ++ " must be greater than zero.") else OkStatus).
Definition validate_gt0_i (v : Z) (label : string) : status :=
  if Z.leb v 0 then InvalidArgument (label ++ " must be greater than zero.") else OkStatus.

(** validation.h:39-52 ValidateGreaterThanOrEqualToZero<float/double>. *)
Definition validate_ge0_f (v : F) (label : string) : status :=
  and_then (validate_finite_f v label)
    (if fltb v f0 then InvalidArgument (label ++ " must be greater than or equal to zero.") else OkStatus).
Definition validate_ge0_d (v : D) (label : string) : status :=
  and_then (validate_finite_d v label)
    (if dltb v d0 then InvalidArgument (label ++ " must be greater than or equal to zero.") else OkStatus).

(** params.cc:48-94 ValidateLoopContractionMitigationParameters. *)
Definition validate_loop (p : LoopParams) : status :=
  if negb (lp_enabled p) then OkStatus
  else if fltb (lp_speed_upper p) (lp_speed_lower p) || fltb (lp_speed_lower p) f0 then
    InvalidArgument "LoopContractionMitigationParameters::speed_lower_bound"
  else if fltb (lp_strength_lower p) (lp_strength_upper p)
          || fltb f1 (lp_strength_lower p)
          || fltb (lp_strength_upper p) f0 then
    InvalidArgument "LoopContractionMitigationParameters::interpolation_strength_at_speed_lower_bound"
  else if Z.ltb (lp_min_samples p) 1 || Z.ltb kMaxDiscreteSamples (lp_min_samples p) then
    InvalidArgument "LoopContractionMitigationParameters::min_discrete_speed_samples"
  else if dleb (lp_window p) d0 || dltb kMaxSamplingWindow (lp_window p) then
    InvalidArgument "LoopContractionMitigationParameters::min_speed_sampling_window"
  else OkStatus.

(** params.cc:96-105 ValidatePositionModelerParams. *)
Definition validate_position (p : PositionParams) : status :=
  and_then (validate_loop (pp_loop p))
  (and_then (validate_gt0_f (pp_spring p) "PositionModelerParams::spring_mass_constant")
  (validate_gt0_f (pp_drag p) "PositionModelerParams::drag_ratio")).

(** params.cc:107-136 ValidateSamplingParams. *)
Definition validate_sampling (p : SamplingParams) : status :=
  and_then (validate_gt0_d (sp_rate p) "SamplingParams::min_output_rate")
  (and_then (validate_gt0_f (sp_stop p) "SamplingParams::end_of_stroke_stopping_distance")
  (and_then (validate_gt0_i (sp_max_iter p) "SamplingParams::end_of_stroke_max_iterations")
  (if Z.ltb kMaxEndOfStrokeMaxIterations (sp_max_iter p) then
     InvalidArgument "SamplingParams::end_of_stroke_max_iterations must be at most"
   else
   and_then (validate_gt0_i (sp_max_outputs p) "SamplingParams::max_outputs_per_call")
   (if negb (deqb (sp_max_angle p) (dofZ (-1))) then
      and_then (validate_gt0_d (sp_max_angle p)
                  "SamplingParams::max_estimated_angle_to_traverse_per_input")
      (if dleb kPi (sp_max_angle p) then
         InvalidArgument "SamplingParams::max_estimated_angle_to_traverse_per_input must be less than kPi"
       else OkStatus)
    else OkStatus)))).

(** params.cc:138-152 ValidateStylusStateModelerParams. *)
Definition validate_stylus (p : StylusParams) : status :=
  if sy_normal p then
    and_then (validate_gt0_i (sy_min_samples p) "StylusStateModelerParams::min_input_samples")
    (validate_gt0_d (sy_min_duration p) "StylusStateModelerParams::min_sample_duration")
  else
    validate_gt0_i (sy_max_samples p) "StylusStateModelerParams::max_input_samples".

(** params.cc:154-171 ValidateWobbleSmootherParams. *)
Definition validate_wobble (p : WobbleParams) : status :=
  if negb (wp_enabled p) then OkStatus
  else
  and_then (validate_ge0_d (wp_timeout p) "WobbleSmootherParams::timeout")
  (and_then (validate_ge0_f (wp_floor p) "WobbleSmootherParams::speed_floor")
  (and_then (validate_finite_f (wp_ceiling p) "WobbleSmootherParams::speed_ceiling")
  (if fltb (wp_ceiling p) (wp_floor p) then
     InvalidArgument "WobbleSmootherParams::speed_ceiling must be greater than or equal to speed_floor"
   else OkStatus))).

(** params.cc:175-234 ValidateKalmanPredictorParams. *)
Definition validate_kalman (p : KalmanParams) : status :=
  and_then (validate_gt0_d (kp_process p) "KalmanPredictorParams::process_noise")
  (and_then (validate_gt0_d (kp_measure p) "KalmanPredictorParams::measurement_noise")
  (and_then (validate_gt0_i (kp_min_stable p) "KalmanPredictorParams::min_stable_iteration")
  (and_then (validate_gt0_i (kp_max_times p) "KalmanPredictorParams::max_time_samples")
  (and_then (validate_gt0_f (kp_catchup p) "KalmanPredictorParams::min_catchup_velocity")
  (and_then (validate_finite_f (kp_acc_weight p) "KalmanPredictorParams::acceleration_weight")
  (and_then (validate_finite_f (kp_jerk_weight p) "KalmanPredictorParams::jerk_weight")
  (and_then (validate_gt0_d (kp_interval p) "KalmanPredictorParams::jerk_weight")
  (let c := kp_conf p in
   and_then (validate_gt0_i (cp_samples c) "ConfidenceParams::desired_number_of_samples")
  (and_then (validate_gt0_f (cp_max_dist c) "ConfidenceParams::max_estimation_distance")
  (and_then (validate_ge0_f (cp_min_speed c) "ConfidenceParams::min_travel_speed")
  (and_then (validate_finite_f (cp_max_speed c) "ConfidenceParams::max_travel_speed")
  (if fltb (cp_max_speed c) (cp_min_speed c) then
     InvalidArgument "ConfidenceParams::max_travel_speed must be greater than or equal to min_travel_speed"
   else
   and_then (validate_gt0_f (cp_max_dev c) "ConfidenceParams::max_linear_deviation")
   (if fltb (cp_baseline c) f0 || fltb f1 (cp_baseline c) then
      InvalidArgument "ConfidenceParams::baseline_linearity_confidence"
    else OkStatus))))))))))))).

(** params.cc:238-246 ValidatePredictionParams. *)
Definition validate_prediction (p : PredictionParams) : status :=
  match p with
  | PredKalman k => validate_kalman k
  | _ => OkStatus
  end.

(** params.cc:248-265 ValidateStrokeModelParams. *)
Definition validate_params (p : StrokeModelParams) : status :=
  if lp_enabled (pp_loop (p_position p)) && negb (sy_normal (p_stylus p)) then
    InvalidArgument "project_to_segment_along_normal_is_enabled must be true"
  else
  and_then (validate_wobble (p_wobble p))
  (and_then (validate_position (p_position p))
  (and_then (validate_sampling (p_sampling p))
  (and_then (validate_stylus (p_stylus p))
  (validate_prediction (p_prediction p))))).

End Params.
