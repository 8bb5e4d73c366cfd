(** * Concrete cases for C54: strokes turned, reflected, and with other signs of zero. *)
From Coq Require Import ZArith Bool List Lia String.
From Flocq Require Import Core.Core IEEE754.BinarySingleNaN.
From Verif Require Export Examples_Q Props_Mirror.
Import ListNotations.
Open Scope Z_scope.

#[local] Existing Instance arc_arith.
(** The absolute value stands in for acosf, as in C45_example. *)
Lemma arc_zero : arc (B754_zero true) = arc (B754_zero false).
Proof. reflexivity. Qed.
Definition quarter_turn : flip := mkFlip true false true.
Definition reflection : flip := mkFlip false true false.
Definition diagonal : flip := mkFlip true false false.

(** Smoothing, loop mitigation, a limit on the angle, projection along the normal. *)
Definition M_turn : StrokeModelParams :=
  mkParams (mkWobbleParams true (dlit 4 100) (flit 131 100) (flit 144 100))
    (mkPositionParams (flit 11 32400) (flit 72 1) (mkLoopParams true (flit 0 1) (flit 100 1) (flit 1 1) (flit 1 2) (dlit 4 100) 3))
    (mkSamplingParams (dlit 180 1) (flit 1 1000) 20 100 (dlit 1 10))
    (mkStylusParams 10 true 10 (dlit 5 100)) PredStrokeEnd.
(** Smoothing and Kalman prediction, projection to the closest point. *)
Definition M_kalman : StrokeModelParams :=
  mkParams (mkWobbleParams true (dlit 4 100) (flit 131 100) (flit 144 100))
    (mkPositionParams (flit 11 32400) (flit 72 1) default_loop)
    (mkSamplingParams (dlit 180 1) (flit 1 1000) 20 100 (dlit 1 10))
    (mkStylusParams 10 false (-1) (dlit (-1) 1))
    (PredKalman (mkKalmanParams (dlit 1 100) (dlit 1 10) 4 20 (flit 1 100) (flit 1 2) (flit 1 10) (dlit 2 100)
       (mkConfidenceParams 20 (flit 4 1) (flit 6 1) (flit 20 1) (flit 2 1) (flit 1 2)))).
Definition M_inp (e : event_type) (x y t pr : Z) : Input :=
  mkInput e (mkVec2 (flit x 100) (flit y 100)) (dlit t 1000) (flit pr 100) (flit 1 2) (flit 3 1).
Definition M_hist (p : StrokeModelParams) : list call :=
  CReset p :: map (fun i => CUpdate i []) [M_inp EDown 1 2 0 50; M_inp EMove 10 3 10 60; M_inp EMove 20 5 20 70; M_inp EMove 20 20 30 80].
Definition M_calls : list call :=
  [CUpdate (M_inp EMove 15 30 40 90) []; CPredict []; CSave; CUpdate (M_inp EMove 10 10 60 70) []; CRestore; CUpdate (M_inp EMove 15 30 30 90) []; CUpdate (M_inp EUp 17 28 50 80) []].
Definition M_codes (l : list Z) (rs : list reply) : bool :=
  match list_eq_dec Z.eq_dec (map (fun r : reply => match r with RStatus OkStatus | RResults OkStatus (_ :: _) => 0 | RResults OkStatus [] => 1 | RVoid => -1 | _ => 2 end) rs) l with left _ => true | right _ => false end.
Definition M_ok (f : list reply -> bool) (o : outcome (list reply)) : bool := match o with Ret rs => f rs | _ => false end.
Lemma M_flippable : forall g p, turn g = true \/ sy_normal (p_stylus p) = false -> Forall (flippable arc g) (M_hist p ++ M_calls).
Proof. intros g p H. unfold M_hist, M_calls. cbn [map app]. constructor; [exact H|]. repeat (constructor; [exact I|]). constructor. Qed.

Example C54_turn_example : turn quarter_turn = true /\ sy_normal (p_stylus M_turn) = true /\
  Forall (flippable arc quarter_turn) (M_hist M_turn ++ M_calls) /\
  M_ok (M_codes [0; 0; -1; 0; -1; 2; 0]) (answers 5 (M_hist M_turn) M_calls) = true.
Proof. split; [reflexivity|]. split; [reflexivity|]. split; [apply M_flippable; left; reflexivity|compute_true]. Qed.
Example C54_reflection_example : turn reflection = false /\ turn diagonal = false /\
  Forall (flippable arc reflection) (M_hist M_kalman ++ M_calls) /\ Forall (flippable arc diagonal) (M_hist M_kalman ++ M_calls) /\
  M_ok (M_codes [0; 0; -1; 0; -1; 2; 0]) (answers 5 (M_hist M_kalman) M_calls) = true.
Proof.
  split; [reflexivity|]. split; [reflexivity|]. split; [apply M_flippable; right; reflexivity|]. split; [apply M_flippable; right; reflexivity|compute_true].
Qed.

(** The signs of zeros: the same stroke along the x axis, at y = 0.0f and at y = -0.0f. *)
Definition M_axis (z : bool) (e : event_type) (x t : Z) : Input :=
  mkInput e (mkVec2 (flit x 100) (B754_zero z : float32)) (dlit t 1000) (flit 1 2) (flit 1 2) (flit 3 1).
Definition M_line (z : bool) : list call :=
  CReset M_kalman :: map (fun i => CUpdate i []) [M_axis z EDown 0 0; M_axis z EMove 10 10; M_axis z EMove 20 20; M_axis z EMove 30 30; M_axis z EMove 40 40].
Definition M_more (z : bool) : list call := [CPredict []; CUpdate (M_axis z EUp 50 50) []].
Example C54_zero_example : Forall2 (call_alike arc) (M_line false) (M_line true) /\ Forall2 (call_alike arc) (M_more false) (M_more true) /\
  M_line false <> M_line true /\
  M_ok (M_codes [0; 0]) (answers 5 (M_line false) (M_more false)) = true.
Proof.
  assert (K : forall e x t, call_alike arc (CUpdate (M_axis false e x t) []) (CUpdate (M_axis true e x t) [])).
  { intros e x t. cbn [call_alike M_axis i_pos]. split; [|split; [reflexivity|constructor]]. split; [left; reflexivity|right; exists false, true; split; reflexivity]. }
  split; [|split; [|split; [|compute_true]]].
  - unfold M_line. cbn [map]. constructor; [reflexivity|]. repeat (constructor; [apply K|]). constructor.
  - unfold M_more. constructor; [exact I|]. constructor; [apply K|constructor].
  - intros E. apply (f_equal (fun l : list (@call arc_arith) => match l with _ :: @CUpdate _ i _ :: _ => Bsign (@vy arc_arith (@i_pos arc_arith i) : float32) | _ => false end)) in E. discriminate E.
Qed.
