(** * C44: the stroke of Examples_R drawn moved, turned and scaled, and at another pace. *)
From Coq Require Import ZArith Bool List Reals Lra Lia.
From Verif Require Import Symmetry Props_Rest Examples_R.
Import ListNotations.
Open Scope R_scope.
#[local] Existing Instance real_arith.

(** Turned by the angle of the 3-4-5 triangle, three times as large, shifted;
    twice as slow, from time 7 on. *)
Definition turn : motion := mkMotion false 3 (3/5) (4/5) 10 (-20) 2 7.
(** The same at the old size. *)
Definition turn1 : motion := mkMotion false 1 (3/5) (4/5) 10 (-20) 2 7.

(** Upside down, at the same size and pace: y is negated. *)
Definition mirror : motion := mkMotion true 1 1 0 0 0 1 0.

Lemma turn_similarity : similarity turn /\ similarity turn1 /\ similarity mirror.
Proof. unfold similarity. cbn. lra. Qed.

Lemma drawing_movable : forall g wob loop normal limit pred is, 1 <= g_unit g <= 2 -> (forall kp, pred = PredKalman kp -> g_scale g = 1) ->
  (g_mirror g = true -> normal = false) ->
  Forall (movable g) (drawing (R_params wob loop normal limit pred) is).
Proof.
  intros g wob loop normal limit pred is U K N. unfold drawing. constructor.
  - cbn [movable]. split; [|split; [exact K|exact N]]. intros _. cbn. nra.
  - induction is as [|i is IH]; cbn [map]; constructor; [exact Logic.I|exact IH].
Qed.

(** Every feature on; the Move to (0, 3/2) at time 3 becomes one to
    (32/5, -173/10) at time 13. *)
Example C44_example : let p := R_params true true true true PredStrokeEnd in
  exists out, answers 1 (drawing p [down; move1; move2]) [CUpdate move3 []] = Ret [RResults OkStatus out] /\
    answers 1 (map (moved_call turn) (drawing p [down; move1; move2])) [CUpdate (at_ EMove (32/5) (-173/10) 13 (1/4)) []] =
      Ret [RResults OkStatus (map (moved_result turn) out)].
Proof.
  intros p. destruct (move3_next true true true true PredStrokeEnd ltac:(fitting)) as (s & es & out & A1 & A2 & A3 & A4 & A5 & AN). cbn [app] in AN. fold p in AN.
  exists out. split; [exact AN|]. pose proof (C44_similarity 1 turn (drawing p [down; move1; move2]) [CUpdate move3 []] (proj1 turn_similarity)) as K.
  rewrite AN in K. unfold omap in K. cbn [obind map moved_call moved_reply app] in K.
  replace (moved_input turn move3) with (at_ EMove (32/5) (-173/10) 13 (1/4)) in K.
  - apply K. apply Forall_app. split; [apply drawing_movable; [cbn; lra|intros; discriminate|intros; discriminate]|repeat constructor].
  - unfold moved_input, move3, at_, moved_pos, moved_time, turned. cbn. f_equal; [f_equal|]; lra.
Qed.

(** A prediction by a Kalman filter whose variances are not converted. *)
Example C44_kalman_example : let p := R_params false false false true (PredKalman R_kalman) in
  Forall (movable turn1) (drawing p [down; move1; move2] ++ [CUpdate move3 []; CPredict []]) /\
  exists out, answers 1 (drawing p [down; move1; move2]) [CUpdate move3 []] = Ret [RResults OkStatus out] /\
    answers 1 (map (moved_call turn1) (drawing p [down; move1; move2])) [CUpdate (moved_input turn1 move3) []] =
      Ret [RResults OkStatus (map (moved_result turn1) out)] /\
    answers 1 (map (moved_call turn1) (drawing p [down; move1; move2])) [CPredict []] =
      omap (map (moved_reply turn1)) (answers 1 (drawing p [down; move1; move2]) [CPredict []]).
Proof.
  intros p. assert (MV : forall cs, Forall (movable turn1) cs -> Forall (movable turn1) (drawing p [down; move1; move2] ++ cs)).
  { intros cs H. apply Forall_app. split; [apply drawing_movable; [cbn; lra|reflexivity|intros; discriminate]|exact H]. }
  split; [apply MV; repeat constructor|].
  destruct (move3_next false false false true (PredKalman R_kalman) ltac:(fitting)) as (s & es & out & A1 & A2 & A3 & A4 & A5 & AN). cbn [app] in AN. fold p in AN.
  exists out. split; [exact AN|]. split.
  - pose proof (C44_similarity 1 turn1 (drawing p [down; move1; move2]) [CUpdate move3 []] (proj1 (proj2 turn_similarity)) (MV [CUpdate move3 []] ltac:(repeat constructor))) as K.
    rewrite AN in K. exact K.
  - exact (C44_similarity 1 turn1 (drawing p [down; move1; move2]) [CPredict []] (proj1 (proj2 turn_similarity)) (MV [CPredict []] ltac:(repeat constructor))).
Qed.

(** Mirroring does not change the parameters. *)
Lemma mirror_params : forall p, moved_params mirror p = p.
Proof.
  assert (E1 : forall x : R, 1 * x = x) by (intros; ring). assert (E2 : forall x : R, x / 1 = x) by (intros; field).
  intros [[a b c d] [e f [g h i j k l m]] [n o q r s] [t u v w] [|[k1 k2 k3 k4 k5 k6 k7 k8 [c1 c2 c3 c4 c5 c6]]|]];
  unfold moved_params, moved_wobble, moved_position, moved_loop, moved_sampling, moved_stylus, moved_prediction, moved_kalman, moved_confidence;
  cbn; rewrite !E2, !E1; reflexivity.
Qed.

(** Smoothing on, projection to the closest point: the stroke of the Moves with y negated. *)
Example C44_mirror_example : let p := R_params true false false true PredStrokeEnd in
  Forall (movable mirror) (drawing p [down; move1; move2] ++ [CUpdate move3 []]) /\
  moved_params mirror p = p /\ moved_input mirror move3 = at_ EMove 0 (-3/2) 3 (1/4) /\
  exists out, answers 1 (drawing p [down; move1; move2]) [CUpdate move3 []] = Ret [RResults OkStatus out] /\
    answers 1 (map (moved_call mirror) (drawing p [down; move1; move2])) [CUpdate (at_ EMove 0 (-3/2) 3 (1/4)) []] =
      Ret [RResults OkStatus (map (moved_result mirror) out)].
Proof.
  intros p. assert (MV : Forall (movable mirror) (drawing p [down; move1; move2] ++ [CUpdate move3 []])).
  { apply Forall_app. split; [apply drawing_movable; [cbn; lra|intros; discriminate|reflexivity]|repeat constructor]. }
  assert (E : moved_input mirror move3 = at_ EMove 0 (-3/2) 3 (1/4)).
  { unfold moved_input, move3, at_, moved_pos, moved_time, turned, g_flip. cbn. f_equal; [f_equal|]; lra. }
  split; [exact MV|]. split; [|split; [exact E|]].
  { apply mirror_params. }
  destruct (move3_next true false false true PredStrokeEnd ltac:(fitting)) as (s & es & out & A1 & A2 & A3 & A4 & A5 & AN). cbn [app] in AN. fold p in AN.
  exists out. split; [exact AN|]. pose proof (C44_similarity 1 mirror (drawing p [down; move1; move2]) [CUpdate move3 []] (proj2 (proj2 turn_similarity)) MV) as K.
  rewrite AN in K. unfold omap in K. cbn [obind map moved_call moved_reply app] in K. rewrite E in K. exact K.
Qed.
