(** * Specification vocabulary: what a client of the API can see.

    Nothing here looks inside the modeler: histories are lists of API calls
    ([call]), and the only thing observed of a call is its [reply] (status and
    contents of the caller's vector) or that it does not return. *)
From Verif Require Export Modeler.

Section Spec.
Context {A : Arith}.

(** The replies to the calls [cs] made on a newly constructed StrokeModeler
    after the calls [hist] have been made on it.  [UB]/[Diverge] if one of the
    calls (of [hist] or [cs]) does not return normally. *)
Definition answers (fuel : nat) (hist cs : list call) : outcome (list reply) :=
  let* '(m, _) := run fuel modeler0 hist in
  let* '(_, rs) := run fuel m cs in
  Ret rs.

(** The call returned, i.e. it was well defined and terminated. *)
Definition returns {X : Type} (o : outcome X) : Prop := exists x, o = Ret x.

(** Two histories are indistinguishable by the calls satisfying [P]: whatever is
    called from now on, the replies are the same. *)
Definition indistinguishable_by (P : list call -> Prop) (fuel : nat) (h1 h2 : list call) : Prop :=
  forall cs, P cs -> answers fuel h1 cs = answers fuel h2 cs.
Definition indistinguishable (fuel : nat) (h1 h2 : list call) : Prop :=
  forall cs, answers fuel h1 cs = answers fuel h2 cs.

(** Does the parameter struct ask for prediction? *)
Definition prediction_on (p : StrokeModelParams) : bool :=
  match p_prediction p with PredDisabled => false | _ => true end.

(** ** The protocol automaton.

    What a client who records calls and replies knows about the modeler: the
    parameters in force, the last accepted input of the stroke in progress (None:
    no stroke in progress), and the same for the saved state, if there is one. *)
Record pstate : Type := mkP {
  ps_params : option StrokeModelParams;
  ps_last : option Input;
  ps_saved : option (option Input)
}.

Definition pstate0 : pstate := mkP None None None.

Definition in_stroke (s : pstate) : bool :=
  match ps_last s with Some _ => true | None => false end.

Definition pstep (s : pstate) (c : call) (r : reply) : pstate :=
  match c, r with
  | CReset p, RStatus OkStatus => mkP (Some p) None None
  | CResetKeep, RStatus OkStatus => mkP (ps_params s) None None
  | CUpdate i _, RResults OkStatus _ =>
      mkP (ps_params s) (match i_event i with EUp => None | _ => Some i end) (ps_saved s)
  | CSave, _ => mkP (ps_params s) (ps_last s) (Some (ps_last s))
  | CRestore, _ =>
      match ps_saved s with
      | Some l => mkP (ps_params s) l (ps_saved s)
      | None => s
      end
  | _, _ => s
  end.

Fixpoint prun (s : pstate) (cs : list call) (rs : list reply) : pstate :=
  match cs, rs with
  | c :: cs', r :: rs' => prun (pstep s c r) cs' rs'
  | _, _ => s
  end.

(** The client's knowledge after the history [hist], from the replies it got. *)
Definition after (fuel : nat) (hist : list call) (s : pstate) : Prop :=
  exists m rs, run fuel modeler0 hist = Ret (m, rs) /\ prun pstate0 hist rs = s.

(** Classification of calls. *)
Definition is_reset (c : call) : bool :=
  match c with CReset _ | CResetKeep => true | _ => false end.
Definition is_save (c : call) : bool := match c with CSave => true | _ => false end.
Definition is_restore (c : call) : bool := match c with CRestore => true | _ => false end.
Definition is_predict (c : call) : bool := match c with CPredict _ => true | _ => false end.

(** [c] is a Reset to parameters that disable prediction. *)
Definition disables_prediction (c : call) : bool :=
  match c with CReset p => negb (prediction_on p) | _ => false end.
(** [c] is a Reset to parameters that enable prediction. *)
Definition enables_prediction (c : call) : bool :=
  match c with CReset p => prediction_on p | _ => false end.

(** [c] was an Update with a Down event and it was accepted. *)
Definition accepted_down (c : call) (r : reply) : bool :=
  match c, r with
  | CUpdate i _, RResults OkStatus _ => match i_event i with EDown => true | _ => false end
  | _, _ => false
  end.

(** The event of an accepted Update. *)
Definition accepted_event (c : call) (r : reply) : list event_type :=
  match c, r with
  | CUpdate i _, RResults OkStatus _ => [i_event i]
  | _, _ => []
  end.
Fixpoint accepted_events (cs : list call) (rs : list reply) : list event_type :=
  match cs, rs with
  | c :: cs', r :: rs' => accepted_event c r ++ accepted_events cs' rs'
  | _, _ => []
  end.

(** Prefixes of (Down Move* Up)*: [well_formed false] outside a stroke,
    [well_formed true] inside one. *)
Inductive well_formed : bool -> list event_type -> Prop :=
| wf_nil b : well_formed b []
| wf_down l : well_formed true l -> well_formed false (EDown :: l)
| wf_move l : well_formed true l -> well_formed true (EMove :: l)
| wf_up l : well_formed false l -> well_formed true (EUp :: l).

(** No call in [cs] is of the kind [f]. *)
Definition no_call (f : call -> bool) (cs : list call) : Prop :=
  forallb (fun c => negb (f c)) cs = true.

(** No Update in [cs], with replies [rs], was an accepted Down. *)
Fixpoint no_accepted_down (cs : list call) (rs : list reply) : Prop :=
  match cs, rs with
  | c :: cs', r :: rs' => accepted_down c r = false /\ no_accepted_down cs' rs'
  | _, _ => True
  end.

(** The replies to the calls that are not Predict. *)
Fixpoint other_replies (cs : list call) (rs : list reply) : list reply :=
  match cs, rs with
  | c :: cs', r :: rs' => if is_predict c then other_replies cs' rs' else r :: other_replies cs' rs'
  | _, _ => []
  end.

(** The Result that a Down must produce: the input, at rest. *)
Definition echo (i : Input) : Result :=
  mkResult (i_pos i) vzero vzero (i_time i) (i_pressure i) (i_tilt i) (i_orient i).

(** What an unconfigured modeler may answer. *)
Definition unconfigured_reply (c : call) (r : reply) : Prop :=
  match c with
  | CReset _ => exists msg, r = RStatus (InvalidArgument msg)
  | CResetKeep => exists msg, r = RStatus (FailedPrecondition msg)
  | CUpdate _ rs => exists msg, r = RResults (FailedPrecondition msg) rs
  | CPredict _ => exists msg, r = RResults (FailedPrecondition msg) []
  | CSave | CRestore => r = RVoid
  end.

Definition is_error (s : status) : Prop := s <> OkStatus.

End Spec.
