(** * C02, C45, C48, C49: concrete parameters, and counterexamples about parameters
      and Kalman predictions. *)
From Coq Require Import ZArith Bool List Lia String Reals.
From Flocq Require Import IEEE754.BinarySingleNaN.
From Verif Require Export Examples_F Props_Valid.
Import ListNotations.
Open Scope Z_scope.

Lemma after_nil : after 5 [] pstate0.
Proof. exists modeler0, []. split; reflexivity. Qed.

Lemma kalman_inj : forall a b : KalmanParams, PredKalman a = PredKalman b -> b = a.
Proof. intros a b E. injection E as ->. reflexivity. Qed.
Definition accepted (p : StrokeModelParams) : bool := match validate_params p with OkStatus => true | _ => false end.
Lemma accepted_reset : forall p, accepted p = true -> answers 5 [] [CReset p] = Ret [RStatus OkStatus].
Proof. intros p H. unfold accepted in H. cbn. unfold reset_params. destruct (validate_params p); [reflexivity|discriminate H|discriminate H]. Qed.
Definition ub_conversion (o : outcome (list reply)) : bool := match o with UB UB_float_to_int => true | _ => false end.
Lemma ub_conversion_eq : forall o, ub_conversion o = true -> o = UB UB_float_to_int.
Proof. intros [|[]|] H; try discriminate H. reflexivity. Qed.

(** C02: documented parameters, with mitigation or Kalman prediction. *)
Example C02_example : documented (fun x => x) P_loop /\ documented (fun x => x) P_kal.
Proof.
  split; (apply (C02_accepted_iff_documented (fun x => x) 5 [] pstate0 _ after_nil); [|apply accepted_reset; compute_true]).
  - split; [intros _ l; repeat split; compute_true|discriminate].
  - split; [discriminate|]. intros k E. apply kalman_inj in E. subst k. compute_true.
Qed.

(** C02: mitigation bounds, or the Kalman predictor's baseline confidence, that are
    NaN are accepted. *)
Definition nan_loop : LoopParams := mkLoopParams true B754_nan B754_nan B754_nan B754_nan B754_nan 3.
Definition P_nan_loop : StrokeModelParams :=
  mkParams demo_wobble (mkPositionParams (fl 11 32400) (fl 72 1) nan_loop) (demo_sampling 100) demo_stylus_normal PredStrokeEnd.
Definition nan_kalman : KalmanParams :=
  mkKalmanParams (db 1 100) (db 1 10) 4 20 (fl 1 100) (fl 1 2) (fl 1 10) (db 2 100)
    (mkConfidenceParams 20 (fl 4 1) (fl 6 1) (fl 20 1) (fl 2 1) B754_nan).
Definition P_nan_kalman : StrokeModelParams :=
  mkParams demo_wobble demo_position (demo_sampling 100) demo_stylus (PredKalman nan_kalman).
Theorem C02_nan_refuted : exists p1 p2 k, p_prediction p2 = PredKalman k /\
  answers 5 [] [CReset p1] = Ret [RStatus OkStatus] /\ ~ documented (fun x => x) p1 /\
  is_nan (lp_speed_lower (pp_loop (p_position p1))) = true /\
  answers 5 [] [CReset p2] = Ret [RStatus OkStatus] /\ ~ documented (fun x => x) p2 /\
  is_nan (cp_baseline (kp_conf k)) = true.
Proof.
  exists P_nan_loop, P_nan_kalman, nan_kalman. split; [reflexivity|]. split; [apply accepted_reset; compute_true|]. split.
  { intros (_ & L & _). destruct (L eq_refl) as (H & _). apply at_most_numbers in H. destruct H as [_ H]. cbn in H. discriminate H. }
  split; [reflexivity|]. split; [apply accepted_reset; compute_true|]. split; [|reflexivity].
  intros (_ & _ & _ & _ & _ & _ & K & _). destruct (K nan_kalman eq_refl) as (_ & _ & _ & _ & _ & _ & _ & _ & _ & _ & _ & _ & _ & _ & H & _). apply at_most_numbers in H. destruct H as [_ H]. cbn in H. discriminate H.
Qed.

(** C48: default-constructed parameters, and parameters whose only placeholder is
    the stopping distance. *)
Definition P_unset : StrokeModelParams :=
  mkParams demo_no_wobble demo_position (mkSamplingParams (db 180 1) fm1 20 100 (db (-1) 1)) demo_stylus PredStrokeEnd.
Example C48_example :
  p_sampling default_params = default_sampling /\ placeholder (fun x => x) P_unset /\
  replies_ok (codes [2]) (answers 5 [] [CReset default_params]) = true /\
  replies_ok (codes [2]) (answers 5 [] [CReset P_unset]) = true.
Proof.
  split; [reflexivity|]. split; [|split; compute_true]. right; left. apply (fm1_fin (fun x => x)).
Qed.

(** C45: a Kalman prediction whose number of results does not fit an int.  The
    parameters are valid, only the prediction interval is very long. *)
Definition eager (stable : Z) (interval : D) : KalmanParams :=
  mkKalmanParams (db 1 100) (db 1 10) stable 20 (fl 1 100) (fl 1 2) (fl 1 10) interval
    (mkConfidenceParams 1 (fl 1000 1) (fl 0 1) (fl 0 1) (fl 1000000 1) (fl 1 1)).
Definition P_far : StrokeModelParams :=
  mkParams demo_no_wobble demo_position (demo_sampling 100) demo_stylus (PredKalman (eager 4 (db (2 ^ 40) 1))).
Theorem C45_kalman_refuted : exists p is, documented (fun x => x) p /\ Forall (fun i => finite_input i = true) is /\
  let hist := CReset p :: map (fun i => CUpdate i []) is in
  replies_ok (codes (map (fun _ => 0) hist)) (answers 5 [] hist) = true /\
  answers 5 hist [CPredict []] = UB UB_float_to_int.
Proof.
  exists P_far, [down; move1; move2; move3]. split; [|split; [repeat constructor; compute_true|split]].
  - apply (C02_accepted_iff_documented (fun x => x) 5 [] pstate0 _ after_nil); [|apply accepted_reset; compute_true].
    split; [discriminate|]. intros k E. apply kalman_inj in E. subst k. compute_true.
  - compute_true.
  - apply ub_conversion_eq. compute_true.
Qed.

(** C49: a Kalman prediction right after Down (allowed by min_stable_iteration = 1)
    divides by the time between the inputs, which is 0: the result is NaN. *)
Definition P_first : StrokeModelParams :=
  mkParams demo_no_wobble demo_position (demo_sampling 100) demo_stylus (PredKalman (eager 1 (db 1 100))).
Theorem C49_predict_refuted : exists p d out, documented (fun x => x) p /\ finite_input d = true /\
  answers 5 [CReset p; CUpdate d []] [CPredict []] = Ret [RResults OkStatus out] /\
  Exists (fun r => fisnan (vx (r_pos r)) = true /\ fisnan (vx (r_vel r)) = true) out.
Proof.
  assert (K : replies_ok (fun rs => match rs with [RResults OkStatus [r]] => fisnan (vx (r_pos r)) && fisnan (vx (r_vel r)) | _ => false end)
    (answers 5 [CReset P_first; CUpdate down []] [CPredict []]) = true) by compute_true.
  apply replies_ok_ex in K. destruct K as (rs & R & K). destruct rs as [|[| [| |] [|r []] |] []]; try discriminate K.
  apply andb_prop in K. exists P_first, down, [r]. split; [|split; [compute_true|split; [exact R|left; exact K]]].
  apply (C02_accepted_iff_documented (fun x => x) 5 [] pstate0 _ after_nil); [|apply accepted_reset; compute_true].
  split; [discriminate|]. intros k E. apply kalman_inj in E. subst k. compute_true.
Qed.
