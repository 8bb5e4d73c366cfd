(** * Concrete cases for C11, C15, C19, C30, C33, C45 and C46. *)
From Coq Require Import ZArith Bool List Lia String.
From Flocq Require Import Core.Core IEEE754.BinarySingleNaN.
From Verif Require Export Examples_N Props_Safe.
Import ListNotations.
Open Scope Z_scope.

(** C11: a Down that starts a stroke, one that starts the second stroke, with
    something in the vector already. *)
Example C11_example :
  (exists rs', answers 5 [CReset P_loop] [CUpdate down []] = Ret [RResults OkStatus rs']) /\
  (exists rs', answers 5 (H_stroke ++ [CUpdate up []]) [CUpdate down2 junk] = Ret [RResults OkStatus rs']).
Proof.
  split.
  - destruct (update_reply 5 [CReset P_loop] down [] 0 ltac:(compute_true)) as (s & l & R & C). apply code_ok in C. subst s. exists l. exact R.
  - destruct (update_reply 5 (H_stroke ++ [CUpdate up []]) down2 junk 0 ltac:(compute_true)) as (s & l & R & C). apply code_ok in C. subst s. exists l. exact R.
Qed.

(** C15: a Save in the middle of a stroke; the calls after it end this stroke, draw
    another and predict. *)
Definition H_after : list call :=
  [CPredict []; CUpdate move3 []; CSave; CUpdate up []; CUpdate down2 []; CPredict []; CResetKeep; CUpdate down []].
Example C15_example : no_call is_restore H_after /\
  replies_ok (codes [0; 0; -1; 0; 0; 0; 0; 0]) (answers 5 (H_stroke ++ [CSave]) H_after) = true.
Proof. split; [reflexivity|compute_true]. Qed.

(** C19: Reset without parameters in the middle of a stroke and with a Save pending;
    afterwards a whole stroke with Save, Predict and Restore. *)
Definition H_pending : list call := H_stroke ++ [CSave; CUpdate move3 []].
Definition H_later : list call := [CUpdate down2 []; CSave; CPredict []; CUpdate move22 []; CRestore; CUpdate move22 []; CUpdate up2 []].
Example C19_example : exists s o,
  after 5 H_pending s /\ offers 5 H_pending o /\ ps_params s = Some P_end /\ of_now o = prediction_on P_end /\
  nothing_stale_at_all o P_end H_later /\
  replies_ok (codes [0; -1; 0; 0; -1; 0; 0]) (answers 5 (H_pending ++ [CResetKeep]) H_later) = true.
Proof.
  destruct (offers_check H_pending (fun s o => in_stroke s && of_now o) ltac:(compute_true)) as (s & o & A1 & A2 & A3).
  apply andb_prop in A3. destruct A3 as [_ A3]. exists s, o. split; [exact A1|]. split; [exact A2|]. split.
  - revert A1. apply after_params; [compute_true|reflexivity].
  - split; [rewrite A3; reflexivity|]. split; [right; left; split; reflexivity|compute_true].
Qed.

(** C30: the parameters of the projection that is not in use, in both modes.  The
    replaced parameters do appear in the history. *)
Definition swap_unused (n k : Z) (d : D (Arith := demo_arith)) (p : StrokeModelParams) : StrokeModelParams :=
  with_stylus p (if sy_normal (p_stylus p)
    then mkStylusParams n true (sy_min_samples (p_stylus p)) (sy_min_duration (p_stylus p))
    else mkStylusParams (sy_max_samples (p_stylus p)) false k d).
Definition H_modes : list call :=
  [CReset P_loop] ++ stroke ++ [CPredict []; CUpdate up []; CReset P_raw] ++ stroke ++ [CPredict []; CUpdate up []].
Example C30_example :
  map_resets (swap_unused 3 7 (db 1 4)) H_modes <> H_modes /\
  replies_ok (codes [0; 0; 0; 0; 0; 0; 0; 0; 0; 0; 0; 0; 0; 0]) (answers 5 [] (map_resets (swap_unused 3 7 (db 1 4)) H_modes)) = true.
Proof.
  split; [|compute_true]. intros E.
  assert (K : forallb (fun c => match c with CReset p => negb (sy_max_samples (p_stylus p) =? 3) | _ => true end) (map_resets (swap_unused 3 7 (db 1 4)) H_modes) =
              forallb (fun c => match c with CReset p => negb (sy_max_samples (p_stylus p) =? 3) | _ => true end) H_modes) by (rewrite E; reflexivity).
  vm_compute in K. discriminate K.
Qed.

(** C33: mitigation parameters that change nothing while mitigation is off: even
    bounds Reset would reject if it were on. *)
Definition H_unmitigated : list call := [CReset P_end] ++ stroke ++ [CPredict []; CUpdate up []; CReset P_raw] ++ stroke.
Definition odd_bounds (p : StrokeModelParams) : StrokeModelParams :=
  with_loop p (mkLoopParams false (fl 7 1) (fl (-3) 1) (fl 2 1) (fl 5 1) (db (-4) 1) (-6)).
Example C33_example :
  (forall p, In (CReset p) H_unmitigated -> lp_enabled (pp_loop (p_position p)) = false) /\
  replies_ok (codes [0; 0; 0; 0; 0; 0; 0; 0; 0; 0; 0; 0]) (answers 5 [] (map_resets odd_bounds H_unmitigated)) = true.
Proof.
  split; [|compute_true]. intros p H. unfold H_unmitigated, stroke in H. cbn [app] in H.
  repeat (destruct H as [H|H]; [try discriminate H; injection H as <-; reflexivity|]); contradiction H.
Qed.

(** C45, C46: a history with limited angles, Save, Restore and rejected calls, and
    an arc cosine that is non-negative.  (The absolute value stands in for acosf; the
    theorem only needs the sign.) *)
Definition arc (x : float32) : float32 := Babs x.
#[local] Instance arc_arith : Arith := ieee arc.
Definition Q_params : @StrokeModelParams arc_arith :=
  @mkParams arc_arith (@mkWobbleParams arc_arith true (dlit 4 100) (flit 131 100) (flit 144 100))
    (@mkPositionParams arc_arith (flit 11 32400) (flit 72 1) (@default_loop arc_arith))
    (@mkSamplingParams arc_arith (dlit 180 1) (flit 1 1000) 20 100 (dlit 1 10))
    (@mkStylusParams arc_arith 10 false (-1) (dlit (-1) 1)) (@PredStrokeEnd arc_arith).
Definition Q_inp (e : event_type) (x y t : Z) : @Input arc_arith :=
  @mkInput arc_arith e (@mkVec2 arc_arith (flit x 100) (flit y 100)) (dlit t 1000) (flit 1 2) (flit 1 2) (flit 3 1).
Definition H_arc : list (@call arc_arith) :=
  [@CUpdate arc_arith (Q_inp EDown 0 0 0) []; CReset Q_params; CUpdate (Q_inp EDown 0 0 0) []; CUpdate (Q_inp EMove 10 0 10) []; CSave;
   CUpdate (Q_inp EMove 20 5 20) []; CUpdate (Q_inp EMove 20 20 30) []; CRestore; CUpdate (Q_inp EMove 10 30 20) []; CPredict [];
   CUpdate (Q_inp EMove 0 0 100000) []; CUpdate (Q_inp EUp 20 30 40) []; CPredict []].
Lemma arc_sound : acosf_sound arc.
Proof.
  intros x _ H. unfold arc. destruct x as [s|s| |s m e B]; try discriminate H; [reflexivity| |reflexivity].
  destruct s; [reflexivity|]. vm_compute in H. discriminate H.
Qed.
Example C45_example : acosf_sound arc /\
  (Z.of_nat (List.length H_arc) <= INT_MAX)%Z /\
  Forall (fun c : @call arc_arith => match c with CReset p => (sp_max_outputs (p_sampling p) < INT_MAX)%Z | _ => True end) H_arc /\
  @no_kalman_prediction arc_arith H_arc /\
  Forall (@call_ok arc_arith (orientation_acceptable arc)) H_arc /\
  (match @answers arc_arith 5 [] H_arc with
   | Ret rs => if list_eq_dec Z.eq_dec (map (fun r => match r with RStatus s | RResults s _ => status_code s | RVoid => -1 end) rs)
                    [1; 0; 0; 0; -1; 0; 0; -1; 0; 0; 2; 0; 1] then true else false
   | _ => false end) = true.
Proof.
  split; [exact arc_sound|]. split; [vm_compute; discriminate|]. split.
  { repeat constructor; vm_compute; reflexivity. }
  split. { left. repeat constructor. intros []. }
  split; [|compute_true].
  assert (K : forall e x y t, orientation_acceptable arc (Q_inp e x y t)) by (intros; right; split; vm_compute; reflexivity).
  repeat (apply Forall_cons; [first [exact I | exact (K _ _ _ _)]|]). apply Forall_nil.
Qed.

(** C45, with Kalman prediction: a prediction interval of 2^40 s. *)
Definition Q_far : @StrokeModelParams arc_arith :=
  @mkParams arc_arith (@mkWobbleParams arc_arith true (dlit 4 100) (flit 131 100) (flit 144 100))
    (@mkPositionParams arc_arith (flit 11 32400) (flit 72 1) (@default_loop arc_arith))
    (@mkSamplingParams arc_arith (dlit 180 1) (flit 1 1000) 20 100 (dlit 1 10))
    (@mkStylusParams arc_arith 10 false (-1) (dlit (-1) 1))
    (@PredKalman arc_arith (@mkKalmanParams arc_arith (dlit 1 100) (dlit 1 10) 4 20 (flit 1 100) (flit 1 2) (flit 1 10) (dlit (2 ^ 40) 1)
       (@mkConfidenceParams arc_arith 1 (flit 1000 1) (flit 0 1) (flit 0 1) (flit 1000000 1) (flit 1 1)))).
Definition H_far : list (@call arc_arith) :=
  [CReset Q_params; CReset Q_far; CUpdate (Q_inp EDown 0 0 0) []; CUpdate (Q_inp EMove 10 0 10) []; CUpdate (Q_inp EMove 20 5 20) [];
   CPredict []; CUpdate (Q_inp EMove 20 20 30) []; CPredict []; CUpdate (Q_inp EUp 20 30 40) []].
Definition ub_conversion_arc (o : outcome (list (@reply arc_arith))) : bool := match o with UB UB_float_to_int => true | _ => false end.
Lemma ub_conversion_arc_eq : forall o, ub_conversion_arc o = true -> o = UB UB_float_to_int.
Proof. intros [|[]|] H; try discriminate H. reflexivity. Qed.
Example C45_kalman_example : acosf_sound arc /\
  (Z.of_nat (List.length H_far) <= INT_MAX)%Z /\
  Forall (fun c : @call arc_arith => match c with CReset p => (sp_max_outputs (p_sampling p) < INT_MAX)%Z | _ => True end) H_far /\
  @answers arc_arith 5 [] H_far = UB UB_float_to_int.
Proof.
  split; [exact arc_sound|]. split; [vm_compute; discriminate|]. split.
  { repeat constructor; vm_compute; reflexivity. }
  apply ub_conversion_arc_eq. compute_true.
Qed.
