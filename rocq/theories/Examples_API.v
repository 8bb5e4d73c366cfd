(** * C01-C20: concrete cases meeting the hypotheses of Props_API.v, and
      counterexamples to the parts of the documentation that are false. *)
From Coq Require Import ZArith Bool List Lia String.
From Verif Require Export Demo.
Import ListNotations.
Open Scope Z_scope.

Ltac compute_true := vm_compute; reflexivity.

(** All the demo parameter sets but P_bad are accepted by Reset. *)
Example demo_params_accepted :
  forallb (fun p => replies_ok (codes [0]) (answers 5 [] [CReset p]))
    [P_end; P_raw; P_off; P_kal; P_loop; P_one] = true /\
  replies_ok (codes [2]) (answers 5 [] [CReset P_bad]) = true.
Proof. split; compute_true. Qed.

(** C01: a history of useless calls, every Reset failing. *)
Definition H_unconf : list call :=
  [CUpdate down []; CPredict []; CResetKeep; CSave; CReset P_bad; CRestore; CUpdate move1 []].
Example C01_example :
  (forall p, In (CReset p) H_unconf -> answers 5 [] [CReset p] <> Ret [RStatus OkStatus]) /\
  exists s, after 5 H_unconf s /\ ps_params s = None.
Proof.
  split.
  - intros p H E. unfold H_unconf in H. repeat (destruct H as [H|H]; [try discriminate H|]); [|contradiction H].
    injection H as <-. destruct (reset_reply 5 [] P_bad 2 ltac:(compute_true)) as (s & R & C).
    rewrite R in E. injection E as ->. discriminate C.
  - destruct (after_check_ex 5 H_unconf (fun s => negb (configured s)) ltac:(compute_true)) as (s & A1 & A2).
    exists s. split; [assumption|]. unfold configured in A2. destruct (ps_params s); [discriminate A2|reflexivity].
Qed.

(** C03: a failing Reset in the middle of a stroke. *)
Definition H_stroke : list call := [CReset P_end; CUpdate down []; CUpdate move1 []; CUpdate move2 []].
Example C03_example : exists e, answers 5 H_stroke [CReset P_bad] = Ret [RStatus e] /\ is_error e.
Proof.
  destruct (reset_reply 5 H_stroke P_bad 2 ltac:(compute_true)) as (s & R & C).
  exists s. split; [assumption|]. eapply code_error; [exact C|lia].
Qed.

(** C04, C07: errors with results already in the vector; C05, C11, C06: accepted
    Down, Move and Up. *)
Definition junk : list Result := [echo down2; echo up].
Example C04_example : exists e rs', answers 5 H_stroke [CUpdate down2 junk] = Ret [RResults e rs'] /\ is_error e.
Proof.
  destruct (update_reply 5 H_stroke down2 junk 1 ltac:(compute_true)) as (s & l & R & C).
  exists s, l. split; [assumption|]. eapply code_error; [exact C|lia].
Qed.
Example C05_example :
  replies_ok (fun rs => codes [0] rs && counts [4] rs) (answers 5 H_stroke [CUpdate move3 junk]) = true /\
  replies_ok (fun rs => codes [0] rs && negb (counts [2] rs)) (answers 5 H_stroke [CUpdate up junk]) = true.
Proof. split; compute_true. Qed.

(** C07: the protocol automaton in and out of a stroke. *)
Example C07_example_in : exists s, after 5 H_stroke s /\ in_stroke s = true.
Proof. apply after_check_ex. compute_true. Qed.
Example C07_example_out : exists s, after 5 (H_stroke ++ [CUpdate up []]) s /\ in_stroke s = false /\ ps_params s = Some P_end.
Proof.
  destruct (after_check_ex 5 (H_stroke ++ [CUpdate up []]) idle ltac:(compute_true)) as (s & A1 & A2).
  exists s. split; [assumption|]. split; [unfold idle in A2; apply negb_true_iff in A2; assumption|].
  revert A1. apply after_params; [compute_true|reflexivity].
Qed.
Example C07_example_valid : validate_input down2 = OkStatus /\ i_event down2 = EDown.
Proof. split; compute_true. Qed.

(** C08: an earlier input, and a repeated one. *)
Example C08_example : exists s l, after 5 H_stroke s /\ ps_last s = Some l /\
  dltb (i_time move1) (i_time l) = true /\ input_eqb l move2 = true.
Proof.
  destruct (after_check_ex 5 H_stroke (fun s => match ps_last s with Some l =>
    dltb (i_time move1) (i_time l) && input_eqb l move2 | None => false end) ltac:(compute_true)) as (s & A1 & A2).
  destruct (ps_last s) as [l|] eqn:L; [|discriminate A2]. apply andb_prop in A2. exists s, l. tauto.
Qed.

(** C10: the error of a Move that is too far away in time ... *)
Definition move_far := inp EMove 10 10 1000000 (-100).
(** ... is reported, the vector is untouched, but the (unknown) pressure of the
    rejected input sticks: the next Move reports pressure -1. *)
Theorem C10_rejected_move_refuted :
  exists hist i rs e, answers 5 hist [CUpdate i rs] = Ret [RResults e rs] /\ is_error e /\
    ~ indistinguishable 5 (hist ++ [CUpdate i rs]) hist.
Proof.
  exists H_stroke, move_far, [].
  destruct (update_reply 5 H_stroke move_far [] 2 ltac:(compute_true)) as (s & l & R & C). exists s.
  assert (E : is_error s) by (eapply code_error; [exact C|lia]).
  pose proof (C04_failed_update_keeps_vector _ _ _ _ _ _ R E) as L. subst l.
  split; [assumption|]. split; [assumption|]. intros I. specialize (I [CUpdate move3 []]).
  revert I. apply (differ_neq _ _ (fun rs => match rs with
    | [RResults OkStatus (r :: _)] => feqb (r_pressure r) (fofZ (-1)) | _ => false end)). compute_true.
Qed.
(** The hypotheses of C10_rejected_update_no_trace_partial: the same error on Up,
    and another error on Move. *)
Example C10_example : 
  replies_ok (codes [2]) (answers 5 H_stroke [CUpdate (inp EUp 10 10 1000000 (-100)) []]) = true /\
  replies_ok (fun rs => match rs with [RResults (InvalidArgument m) _] =>
      negb (String.eqb m msg_non_finite) && negb (String.eqb m msg_too_far) | _ => false end)
    (answers 5 H_stroke [CUpdate move1 []]) = true.
Proof. split; compute_true. Qed.

(** C06: a Move with the timestamp of the previous input succeeds and produces
    nothing. *)
Definition move_same_time := inp EMove 30 30 20 50.
Theorem C06_move_same_time_refuted :
  exists hist i, answers 5 hist [CUpdate i []] = Ret [RResults OkStatus []].
Proof.
  exists H_stroke, move_same_time.
  destruct (update_reply 5 H_stroke move_same_time [] 0 ltac:(compute_true)) as (s & l & R & C).
  assert (K : replies_ok (counts [0]) (answers 5 H_stroke [CUpdate move_same_time []]) = true) by compute_true.
  rewrite R in K |- *. apply code_ok in C. subst s. destruct l; [reflexivity|].
  unfold replies_ok, counts in K. destruct (list_eq_dec _ _ _) as [E|]; [|discriminate K].
  cbn [map count List.length] in E. injection E as E. lia.
Qed.

(** C12: Predicts between other calls; C13: Predict succeeds with a prediction. *)
Example C12_example :
  replies_ok (codes [0; 1; 0; 0; 0; 0; 0])
    (answers 5 [] [CReset P_kal; CPredict junk; CUpdate down []; CPredict junk; CUpdate move1 []; CPredict []; CUpdate up []]) = true.
Proof. compute_true. Qed.
Example C13_example : exists s, after 5 H_stroke s /\ ps_params s = Some P_end /\ prediction_on P_end = true /\ in_stroke s = true /\
  replies_ok (codes [0]) (answers 5 H_stroke [CPredict junk]) = true.
Proof.
  destruct (after_check_ex 5 H_stroke in_stroke ltac:(compute_true)) as (s & A1 & A2).
  exists s. split; [assumption|]. split; [revert A1; apply after_params; [compute_true|reflexivity]|].
  split; [reflexivity|]. split; [assumption|compute_true].
Qed.
Example C13_example_disabled : exists s, after 5 [CReset P_off; CUpdate down []] s /\ ps_params s = Some P_off /\
  prediction_on P_off = false /\ no_call is_restore [CReset P_off; CUpdate down []].
Proof.
  destruct (after_check_ex 5 [CReset P_off; CUpdate down []] in_stroke ltac:(compute_true)) as (s & A1 & A2).
  exists s. split; [assumption|]. split; [revert A1; apply after_params; [compute_true|reflexivity]|]. split; reflexivity.
Qed.

(** C13, C18: prediction was enabled once and its state saved; after a Reset to
    disabled prediction, Save and Restore bring it back, and Predict succeeds. *)
Definition H_stale : list call :=
  [CReset P_end; CUpdate down []; CSave; CReset P_off; CSave; CRestore; CUpdate down2 []].
Theorem C13_disabled_refuted :
  exists hist s p, after 5 hist s /\ ps_params s = Some p /\ prediction_on p = false /\
    exists out, answers 5 hist [CPredict []] = Ret [RResults OkStatus out].
Proof.
  exists H_stale.
  destruct (after_check_ex 5 H_stale (fun s => configured s && negb (predicting s)) ltac:(compute_true)) as (s & A1 & A2).
  apply andb_prop in A2. destruct A2 as [A2 A3]. unfold configured in A2. unfold predicting in A3.
  destruct (ps_params s) as [p|] eqn:P; [|discriminate A2]. apply negb_true_iff in A3.
  exists s, p. repeat split; auto.
  destruct (predict_reply 5 H_stale [] 0 ltac:(compute_true)) as (st & l & R & C).
  apply code_ok in C. subst st. exists l. assumption.
Qed.
Theorem C18_stale_predictor_refuted :
  exists hist p, answers 5 hist [CReset p] = Ret [RStatus OkStatus] /\
    ~ indistinguishable 5 (hist ++ [CReset p]) [CReset p].
Proof.
  exists [CReset P_end; CUpdate down []; CSave], P_off. split.
  - destruct (reset_reply 5 [CReset P_end; CUpdate down []; CSave] P_off 0 ltac:(compute_true)) as (st & R & C).
    apply code_ok in C. subst st. exact R.
  - intros I. specialize (I [CSave; CRestore; CUpdate down2 []; CPredict []]). revert I.
    apply (differ_neq _ _ (codes [-1; -1; 0; 0])). compute_true.
Qed.

(** C14: Save in a stroke, the rest of the stroke, Restore, the rest again. *)
Definition H_mid : list call := [CUpdate move3 []; CPredict []; CUpdate up []].
Example C14_example :
  indistinguishable 5 (H_stroke ++ [CSave] ++ H_mid ++ [CRestore]) (H_stroke ++ [CSave]).
Proof.
  destruct (after_check_ex 5 H_stroke in_stroke ltac:(compute_true)) as (s & A1 & A2).
  destruct (replies_ok_ex (codes [0; 0; 0]) (answers 5 (H_stroke ++ [CSave]) H_mid) ltac:(compute_true)) as (rs & R & C).
  apply (C14_restore_undoes_partial 5 H_stroke s H_mid rs); auto; try reflexivity.
  - right. destruct rs as [|r1 [|r2 [|r3 rs]]]; repeat split; try (destruct r1 as [|[]|]; reflexivity);
      try (destruct r2; reflexivity); try (destruct r3 as [|[]|]; reflexivity).
  - left. rewrite (after_params 5 P_end _ s ltac:(compute_true) (eq_refl : no_call is_reset (tl H_stroke)) A1). reflexivity.
Qed.
(** Refuted when a stroke ends and another begins between Save and Restore: the
    smoothing buffer of the new stroke is kept for the restored old one, and the tip
    jumps to x < -50 although every input of both strokes has 0 <= x <= 5. *)
Definition H_cross : list call := [CUpdate up []; CUpdate down2 []].
Theorem C14_across_strokes_refuted :
  exists hist mid, no_call is_reset mid /\ no_call is_save mid /\
    (exists mrs, answers 5 (hist ++ [CSave]) mid = Ret mrs) /\
    ~ indistinguishable 5 (hist ++ [CSave] ++ mid ++ [CRestore]) (hist ++ [CSave]).
Proof.
  exists H_stroke, H_cross. split; [reflexivity|]. split; [reflexivity|]. split.
  - destruct (replies_ok_ex (codes [0; 0]) (answers 5 (H_stroke ++ [CSave]) H_cross) ltac:(compute_true)) as (rs & R & _).
    exists rs. exact R.
  - intros I. specialize (I [CUpdate move3 []]). revert I.
    apply (differ_neq _ _ (fun rs => match rs with
      | [RResults OkStatus (r :: _)] => fltb (vx (r_pos r)) (fl (-50) 1) | _ => false end)). compute_true.
Qed.

(** C16: a Save forgotten by Reset. *)
Example C16_example : exists s, after 5 (H_stroke ++ [CSave; CResetKeep; CUpdate down2 []]) s /\ ps_saved s = None.
Proof.
  destruct (after_check_ex 5 (H_stroke ++ [CSave; CResetKeep; CUpdate down2 []]) (fun s => negb (has_save s) && in_stroke s) ltac:(compute_true)) as (s & A1 & A2).
  exists s. split; [assumption|]. apply andb_prop in A2. unfold has_save in A2. destruct (ps_saved s); [|reflexivity].
  destruct A2 as [A2 _]. discriminate A2.
Qed.

(** C17: the calls between the two Restores. *)
Example C17_example : exists rs,
  answers 5 (H_stroke ++ [CSave] ++ H_mid ++ [CRestore]) H_mid = Ret rs /\ codes [0; 0; 0] rs = true /\
  no_call is_reset (H_mid ++ H_mid) /\ no_call is_save (H_mid ++ H_mid).
Proof.
  destruct (replies_ok_ex (codes [0; 0; 0]) (answers 5 (H_stroke ++ [CSave] ++ H_mid ++ [CRestore]) H_mid) ltac:(compute_true)) as (rs & R & C).
  exists rs. split; [exact R|]. split; [exact C|]. split; reflexivity.
Qed.

(** C18, C19, C20: after two strokes. *)
Definition H_two : list call := H_stroke ++ [CUpdate up []; CUpdate down2 []; CUpdate move22 []; CUpdate up2 []].
Example C20_example : indistinguishable_by (no_call is_restore) 5 H_two [CReset P_end].
Proof.
  intros cs N.
  destruct (after_check_ex 5 H_two idle ltac:(compute_true)) as (s & A1 & A2).
  unfold idle in A2. apply negb_true_iff in A2.
  apply (C20_strokes_independent_partial 5 H_two s P_end); auto.
  - revert A1. apply (after_params 5 P_end (tl H_two)); [compute_true|reflexivity].
  - left. reflexivity.
  - split; [left; assumption|right; assumption].
Qed.
Example C18_example : no_stale_predictor H_two P_kal [CUpdate down []; CSave; CUpdate up []; CRestore] /\
  replies_ok (codes [0]) (answers 5 H_two [CReset P_kal]) = true.
Proof. split; [right; left; split; reflexivity|compute_true]. Qed.
