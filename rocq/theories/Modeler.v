(** * stroke_modeler.h, stroke_modeler.cc, and the two predictors' interface *)
From Verif Require Export Kalman.

Section Modeler.
Context {A : Arith}.

(** input_predictor.h (virtual interface), stroke_end_predictor.h (members),
    kalman_predictor.h: the dynamic type of the pointed-to InputPredictor. *)
Inductive Predictor : Type :=
| PStrokeEnd (pp : PositionParams) (sp : SamplingParams) (last_position : option Vec2)
| PKal (k : KPredictor).

(** stroke_end_predictor.h Reset; kalman_predictor.cc:53-58. *)
Definition pred_reset (p : Predictor) : Predictor :=
  match p with
  | PStrokeEnd pp sp _ => PStrokeEnd pp sp None
  | PKal k => PKal (kpred_reset k)
  end.

(** stroke_end_predictor.cc:28-30; kalman_predictor.cc:60-71. *)
Definition pred_update (p : Predictor) (position : Vec2) (time : D) : outcome Predictor :=
  match p with
  | PStrokeEnd pp sp _ => Ret (PStrokeEnd pp sp (Some position))
  | PKal k => let* k' := kpred_update k position time in Ret (PKal k')
  end.

(** stroke_end_predictor.cc:32-48; kalman_predictor.cc:109-126. *)
Definition pred_construct (p : Predictor) (last_tip : TipState) : outcome (list TipState) :=
  match p with
  | PStrokeEnd pp sp None => Ret []
  | PStrokeEnd pp sp (Some pos) =>
      Ret (snd (model_end_of_stroke pp last_tip pos (ddiv (dofZ 1) (sp_rate sp))
                  (Z.to_nat (sp_max_iter sp)) (sp_stop sp)))
  | PKal k => kpred_predict k last_tip
  end.

(** stroke_modeler.h:130-133 InputAndCorrectedPosition. *)
Record LastInput : Type := mkLast { li_input : Input; li_corrected : Vec2 }.

(** stroke_modeler.h:117-138, the members of StrokeModeler. *)
Record Modeler : Type := mkModeler {
  m_predictor : option Predictor;
  m_params : option StrokeModelParams;
  m_wobble : Wobble;
  m_pos : PosModeler;
  m_stylus : Stylus;
  m_loop : LoopModeler;
  m_buffer : list TipState;          (* tip_state_buffer_ *)
  m_last : option LastInput;         (* last_input_ *)
  m_saved_predictor : option Predictor;
  m_saved_last : option LastInput;
  m_save_active : bool
}.

(** A default-constructed StrokeModeler. *)
Definition modeler0 : Modeler :=
  mkModeler None None wobble0 pos0 stylus0 loop0 [] None None None false.

(** stroke_modeler.cc:42-53 MakeResultFromTipState. *)
Definition make_result (tip : TipState) (stylus_state : Result) : Result :=
  mkResult (t_pos tip) (t_vel tip) (t_acc tip) (t_time tip)
    (r_pressure stylus_state) (r_tilt stylus_state) (r_orient stylus_state).

(** stroke_modeler.cc:64-74, the loop of ModelStylus; returns the loop modeler
    and the results pushed. *)
Fixpoint model_stylus_loop (fuel : nat) (tips : list TipState) (sm : Stylus) (lm : LoopModeler)
    (interp_value : F) (prev_time : D) : outcome (LoopModeler * list Result) :=
  match tips with
  | [] => Ret (lm, [])
  | tip :: rest =>
      let normal := get_stroke_normal tip prev_time in
      let* projected := stylus_query fuel sm tip normal in
      let* res := interp_result fuel projected (make_result tip projected) interp_value in
      let '(lm', v') := loop_update lm (r_vel res) (t_time tip) in
      let* '(lm'', out) := model_stylus_loop fuel rest sm lm' v' (t_time tip) in
      Ret (lm'', res :: out)
  end.

(** stroke_modeler.cc:55-75 ModelStylus (without the appending, done by callers). *)
Definition model_stylus (fuel : nat) (tips : list TipState) (sm : Stylus) (lm : LoopModeler)
    (prev_time : D) : outcome (LoopModeler * list Result) :=
  model_stylus_loop fuel tips sm lm (loop_get lm) prev_time.

(** stroke_modeler.cc:92-107: the predictor for the given parameters. *)
Definition make_predictor (p : StrokeModelParams) : option Predictor :=
  match p_prediction p with
  | PredKalman k => Some (PKal (kpred_new k (p_sampling p)))
  | PredStrokeEnd => Some (PStrokeEnd (p_position p) (p_sampling p) None)
  | PredDisabled => None
  end.

(** stroke_modeler.cc:79-112 Reset(params), with ResetInternal (123-126) inlined. *)
Definition reset_params (m : Modeler) (p : StrokeModelParams) : Modeler * status :=
  match validate_params p with
  | OkStatus =>
      (mkModeler (make_predictor p) (Some p) (m_wobble m) (m_pos m) (m_stylus m)
         (loop_reset (m_loop m) (pp_loop (p_position p)))
         (m_buffer m) None (m_saved_predictor m) (m_saved_last m) false, OkStatus)
  | e => (m, e)
  end.

Definition msg_initial_reset : string := "Initial call to Reset must pass StrokeModelParams.".
Definition msg_uninitialized : string := "Stroke model has not yet been initialized".
Definition msg_duplicate : string := "Received duplicate input".
Definition msg_backwards : string := "Inputs travel backwards in time".
Definition msg_event : string := "Invalid EventType.".
Definition msg_disabled : string := "Prediction has been disabled by StrokeModelParams.".
Definition msg_no_stroke : string := "Cannot construct prediction when no stroke is in-progress".
Definition msg_down : string := "Received down event while stroke is in-progress".
Definition msg_up : string := "Received up event while no stroke is in-progress".
Definition msg_move : string := "Received move event while no stroke is in-progress".

(** stroke_modeler.cc:114-121 Reset(), with ResetInternal inlined. *)
Definition reset_keep (m : Modeler) : Modeler * status :=
  match m_params m with
  | None => (m, FailedPrecondition msg_initial_reset)
  | Some _ =>
      (mkModeler (m_predictor m) (m_params m) (m_wobble m) (m_pos m) (m_stylus m) (m_loop m)
         (m_buffer m) None (m_saved_predictor m) (m_saved_last m) false, OkStatus)
  end.

(** What an [Update] call does: new modeler, returned status, and the contents
    of the [results] vector after the call. *)
Definition upd_result : Type := Modeler * status * list Result.

(** stroke_modeler.cc:188-230 ProcessDownEvent. *)
Definition process_down (m : Modeler) (p : StrokeModelParams) (input : Input) (results : list Result)
  : outcome upd_result :=
  match m_last m with
  | Some _ => Ret (m, FailedPrecondition msg_down, results)
  | None =>
      let w := wobble_reset (m_wobble m) (p_wobble p) (i_pos input) (i_time input) in
      let pos := pos_reset (mkTip (i_pos input) vzero vzero (i_time input)) (p_position p) in
      let lm := loop_reset (m_loop m) (pp_loop (p_position p)) in
      let* sm := stylus_update (stylus_reset (m_stylus m) (p_stylus p)) (i_pos input) (i_time input)
                   (i_pressure input) (i_tilt input) (i_orient input) in
      let tip := pm_state pos in
      let* pred :=
        match m_predictor m with
        | None => Ret None
        | Some pr =>
            let* pr' := pred_update (pred_reset pr) (i_pos input) (i_time input) in
            Ret (Some pr')
        end in
      Ret (mkModeler pred (m_params m) w pos sm lm (m_buffer m)
             (Some (mkLast input (i_pos input)))
             (m_saved_predictor m) (m_saved_last m) (m_save_active m),
           OkStatus,
           results ++ [mkResult (t_pos tip) (t_vel tip) (t_acc tip) (t_time tip)
                         (i_pressure input) (i_tilt input) (i_orient input)])
  end.

(** stroke_modeler.cc:281-318 ProcessMoveEvent. *)
Definition process_move (fuel : nat) (m : Modeler) (p : StrokeModelParams) (input : Input)
    (results : list Result) : outcome upd_result :=
  match m_last m with
  | None => Ret (m, FailedPrecondition msg_move, results)
  | Some last =>
      let* '(w, corrected) := wobble_update (m_wobble m) (i_pos input) (i_time input) in
      let* sm := stylus_update (m_stylus m) corrected (i_time input)
                   (i_pressure input) (i_tilt input) (i_orient input) in
      let* n := number_of_steps (pm_state (m_pos m)) (li_input last) input
                  (p_sampling p) (p_position p) in
      match n with
      | IErr e =>
          Ret (mkModeler (m_predictor m) (m_params m) w (m_pos m) sm (m_loop m) (m_buffer m)
                 (m_last m) (m_saved_predictor m) (m_saved_last m) (m_save_active m), e, results)
      | IOk n =>
          let* '(tip, tips) :=
            update_along_path (pm_params (m_pos m)) (pm_state (m_pos m))
              (li_corrected last) (i_time (li_input last)) corrected (i_time input) n in
          let* pred :=
            match m_predictor m with
            | None => Ret None
            | Some pr => let* pr' := pred_update pr corrected (i_time input) in Ret (Some pr')
            end in
          let* '(lm, out) := model_stylus fuel tips sm (m_loop m) (i_time input) in
          Ret (mkModeler pred (m_params m) w (pos_with_state (m_pos m) tip) sm lm tips
                 (Some (mkLast input corrected))
                 (m_saved_predictor m) (m_saved_last m) (m_save_active m),
               OkStatus, results ++ out)
      end
  end.

(** stroke_modeler.cc:232-279 ProcessUpEvent. *)
Definition process_up (fuel : nat) (m : Modeler) (p : StrokeModelParams) (input : Input)
    (results : list Result) : outcome upd_result :=
  match m_last m with
  | None => Ret (m, FailedPrecondition msg_up, results)
  | Some last =>
      let* n := number_of_steps (pm_state (m_pos m)) (li_input last) input
                  (p_sampling p) (p_position p) in
      match n with
      | IErr e => Ret (m, e, results)
      | IOk n =>
          let* '(tip1, tips1) :=
            update_along_path (pm_params (m_pos m)) (pm_state (m_pos m))
              (li_corrected last) (i_time (li_input last)) (i_pos input) (i_time input) n in
          let '(tip2, tips2) :=
            model_end_of_stroke (pm_params (m_pos m)) tip1 (i_pos input)
              (ddiv (dofZ 1) (sp_rate (p_sampling p)))
              (Z.to_nat (sp_max_iter (p_sampling p))) (sp_stop (p_sampling p)) in
          let tips := match tips1 ++ tips2 with [] => [tip2] | l => l end in
          let* sm := stylus_update (m_stylus m) (i_pos input) (i_time input)
                       (i_pressure input) (i_tilt input) (i_orient input) in
          let* '(lm, out) := model_stylus fuel tips sm (m_loop m) (i_time (li_input last)) in
          Ret (mkModeler (m_predictor m) (m_params m) (m_wobble m) (pos_with_state (m_pos m) tip2)
                 sm lm tips None (m_saved_predictor m) (m_saved_last m) (m_save_active m),
               OkStatus, results ++ out)
      end
  end.

(** stroke_modeler.cc:128-158 Update. *)
Definition update (fuel : nat) (m : Modeler) (input : Input) (results : list Result)
  : outcome upd_result :=
  match m_params m with
  | None => Ret (m, FailedPrecondition msg_uninitialized, results)
  | Some p =>
      match validate_input input with
      | OkStatus =>
          let dispatch :=
            match i_event input with
            | EDown => process_down m p input results
            | EMove => process_move fuel m p input results
            | EUp => process_up fuel m p input results
            | EOther _ => Ret (m, InvalidArgument msg_event, results)
            end in
          match m_last m with
          | Some last =>
              if input_eqb (li_input last) input then Ret (m, InvalidArgument msg_duplicate, results)
              else if dltb (i_time input) (i_time (li_input last)) then
                Ret (m, InvalidArgument msg_backwards, results)
              else dispatch
          | None => dispatch
          end
      | e => Ret (m, e, results)
      end
  end.

(** stroke_modeler.cc:160-186 Predict.  The modeler is returned because the
    (mutable) tip_state_buffer_ changes; [results] is cleared first. *)
Definition predict (fuel : nat) (m : Modeler) (results : list Result) : outcome upd_result :=
  match m_params m with
  | None => Ret (m, FailedPrecondition msg_uninitialized, [])
  | Some _ =>
      match m_predictor m with
      | None => Ret (m, FailedPrecondition msg_disabled, [])
      | Some pr =>
          match m_last m with
          | None => Ret (m, FailedPrecondition msg_no_stroke, [])
          | Some last =>
              let* tips := pred_construct pr (pm_state (m_pos m)) in
              let* '(_, out) := model_stylus fuel tips (m_stylus m) (m_loop m) (i_time (li_input last)) in
              Ret (mkModeler (m_predictor m) (m_params m) (m_wobble m) (m_pos m) (m_stylus m)
                     (m_loop m) tips (m_last m) (m_saved_predictor m) (m_saved_last m)
                     (m_save_active m), OkStatus, out)
          end
      end
  end.

(** stroke_modeler.cc:320-330 Save. *)
Definition save (m : Modeler) : Modeler :=
  mkModeler (m_predictor m) (m_params m) (wobble_save (m_wobble m)) (pos_save (m_pos m))
    (stylus_save (m_stylus m)) (loop_save (m_loop m)) (m_buffer m) (m_last m)
    (match m_predictor m with Some p => Some p | None => m_saved_predictor m end)
    (m_last m) true.

(** stroke_modeler.cc:332-343 Restore. *)
Definition restore (m : Modeler) : Modeler :=
  if m_save_active m then
    mkModeler
      (match m_saved_predictor m with Some p => Some p | None => m_predictor m end)
      (m_params m) (wobble_restore (m_wobble m)) (pos_restore (m_pos m))
      (stylus_restore (m_stylus m)) (loop_restore (m_loop m)) (m_buffer m) (m_saved_last m)
      (m_saved_predictor m) (m_saved_last m) (m_save_active m)
  else m.

(** ** API calls, as seen by a client *)

(** The public member functions of StrokeModeler (stroke_modeler.h:55-106).
    The vector arguments are the contents of the caller's [results] vector. *)
Inductive call : Type :=
| CReset (p : StrokeModelParams)
| CResetKeep
| CUpdate (i : Input) (results : list Result)
| CPredict (results : list Result)
| CSave
| CRestore.

(** Everything the client can observe of a call: the status and the contents of
    the vector afterwards. *)
Inductive reply : Type :=
| RStatus (s : status)
| RResults (s : status) (results : list Result)
| RVoid.

Definition step (fuel : nat) (m : Modeler) (c : call) : outcome (Modeler * reply) :=
  match c with
  | CReset p => let '(m', s) := reset_params m p in Ret (m', RStatus s)
  | CResetKeep => let '(m', s) := reset_keep m in Ret (m', RStatus s)
  | CUpdate i rs => let* '(m', s, rs') := update fuel m i rs in Ret (m', RResults s rs')
  | CPredict rs => let* '(m', s, rs') := predict fuel m rs in Ret (m', RResults s rs')
  | CSave => Ret (save m, RVoid)
  | CRestore => Ret (restore m, RVoid)
  end.

(** A history of calls: the final modeler and the replies, in order. *)
Fixpoint run (fuel : nat) (m : Modeler) (cs : list call) : outcome (Modeler * list reply) :=
  match cs with
  | [] => Ret (m, [])
  | c :: rest =>
      let* '(m', r) := step fuel m c in
      let* '(m'', rs) := run fuel m' rest in
      Ret (m'', r :: rs)
  end.

End Modeler.
