(** * C43 in IEEE arithmetic: a resting pen with a Kalman predictor. *)
From Coq Require Import ZArith Bool List Lia String Reals Lra Sorted.
From Flocq Require Import Core.Core IEEE754.BinarySingleNaN.
From Verif Require Import Props_FProj Props_FCarry.
From Verif Require Export Examples_N Examples_K Props_FKRest.
Import ListNotations.
Open Scope Z_scope.

#[local] Existing Instance demo_arith.
Transparent b32 b64.

(** Mitigation on, smoothing off, the default Kalman parameters. *)
Definition C_params : StrokeModelParams :=
  mkParams demo_no_wobble demo_position_loop (demo_sampling 100) demo_stylus_normal (PredKalman K_kalman).
Definition lie (e : event_type) (k pr : Z) : Input := mkInput e place (b64 k (-10)) (fl pr 100) (fl 1 2) (fl 1 1).
Definition H_short : list call :=
  CReset C_params :: map (fun i => CUpdate i []) [lie EDown 1024 50; lie EMove 1034 60; lie EMove 1054 70].
Definition H_long : list call :=
  CReset C_params :: map (fun i => CUpdate i []) [lie EDown 1024 50; lie EMove 1034 60; lie EMove 1054 70; lie EMove 1064 80; lie EMove 1074 90].

Lemma lie_ok : forall e k pr, (Z.abs k < 2 ^ 40)%Z -> tick_check (lie e k pr) = true -> @moderate_input (fun x => x) (lie e k pr).
Proof.
  intros e k pr K H. apply andb_prop in H. destruct H as [H H5]. apply andb_prop in H. destruct H as [H H4].
  apply andb_prop in H. destruct H as [H H3]. apply andb_prop in H. destruct H as [H1 H2].
  assert (T := tick_ok e 0 0 k 0 K ltac:(compute_true)). destruct T as [(_ & T & _) _].
  assert (B : forall n, F2R (Float radix2 1 n) = bpow radix2 n) by (intros n; unfold F2R; cbn [Fnum Fexp]; ring).
  apply within_le in H1; [|lia|lia]. apply within_le in H2; [|lia|lia]. apply within_le in H3; [|lia|lia].
  apply within_le in H4; [|lia|lia]. apply within_le in H5; [|lia|lia]. rewrite B in H1, H2, H3, H4, H5.
  split; [split; [exact H1|exact H2]|]. split; [exact T|]. split; [exact H3|]. split; [exact H4|exact H5].
Qed.

Definition C_check (hist : list call) (enough : bool) : bool :=
  match run 5 modeler0 hist with
  | Ret (m, rs) =>
      let s := prun pstate0 hist rs in let es := si_cur (srun sinputs0 hist rs) in let seen := si_seen (srun sinputs0 hist rs) in
      in_stroke s && (resting_check seen && (K_times (most_recent (kp_max_times K_kalman) (map (fun e => i_time (fst e)) es)) &&
        Bool.eqb enough (negb (Z.of_nat (List.length es) <? kp_min_stable K_kalman))))
  | _ => false end.

Lemma C_rate : B2R (sp_rate (p_sampling C_params) : float64) = 180%R.
Proof. apply literal_R; vm_compute; reflexivity. Qed.
Lemma C_ordinary : ordinary_params (acosf := fun x => x) C_params.
Proof.
  split; [reflexivity|]. split.
  - assert (K := bpow_le radix2 (-100) 0 ltac:(lia)). eapply Rle_trans; [exact K|]. apply Rle_trans with 180%R; [cbn; lra|]. apply Req_le. symmetry. exact C_rate.
  - intros l _. repeat split; compute_true.
Qed.

Lemma C_case : forall hist n, no_call is_restore hist -> C_check hist n = true ->
  (forall s, after 5 hist s -> ps_params s = Some C_params) -> Forall (call_input_ok (@moderate_input (fun x => x))) hist ->
  exists s es seen, after_seen 5 hist s es seen /\ in_stroke s = true /\ ps_params s = Some C_params /\
    resting_inputs (acosf := fun x => x) place seen /\ Forall (@moderate_input (fun x => x)) seen /\
    Props_FKalman.spread_out (most_recent (kp_max_times K_kalman) (map (fun e => i_time (fst e)) es)) /\
    n = negb (Z.of_nat (List.length es) <? kp_min_stable K_kalman).
Proof.
  intros hist n NR C PA MO.
  destruct (after_seen_check 5 hist (fun s es seen => in_stroke s && (resting_check seen && (K_times (most_recent (kp_max_times K_kalman) (map (fun e => i_time (fst e)) es)) &&
        Bool.eqb n (negb (Z.of_nat (List.length es) <? kp_min_stable K_kalman)))))) as (s & es & seen & AS & H); [exact NR|exact C|].
  apply andb_prop in H. destruct H as [H1 H]. apply andb_prop in H. destruct H as [H2 H]. apply andb_prop in H. destruct H as [H3 H4].
  exists s, es, seen. split; [exact AS|]. split; [exact H1|]. split.
  { apply PA. destruct AS as (m & rs & R & P & _); exists m, rs; auto. }
  split; [apply resting_check_ok; exact H2|]. split; [exact (proj2 (seen_in _ 5 hist s es seen AS MO))|].
  split; [exact (K_spread _ H3)|]. apply Bool.eqb_prop. exact H4.
Qed.

(** Three inputs: fewer than the predictor asks for, nothing is predicted.  Five: one result. *)
Example C43_float_example :
  ordinary_params (acosf := fun x => x) C_params /\ @moderate_kalman (fun x => x) K_kalman /\ p_prediction C_params = PredKalman K_kalman /\
  (1 <= B2R (sp_rate (p_sampling C_params) : float64) <= 16384)%R /\ finite_point (acosf := fun x => x) place /\
  (exists s es seen, after_seen 5 H_short s es seen /\ in_stroke s = true /\ ps_params s = Some C_params /\
    resting_inputs (acosf := fun x => x) place seen /\ Forall (@moderate_input (fun x => x)) seen /\
    Props_FKalman.spread_out (most_recent (kp_max_times K_kalman) (map (fun e => i_time (fst e)) es)) /\
    false = negb (Z.of_nat (List.length es) <? kp_min_stable K_kalman)) /\
  replies_ok (fun rs => codes [0] rs && counts [0] rs) (answers 5 H_short [CPredict []]) = true /\
  (exists s es seen, after_seen 5 H_long s es seen /\ in_stroke s = true /\ ps_params s = Some C_params /\
    resting_inputs (acosf := fun x => x) place seen /\ Forall (@moderate_input (fun x => x)) seen /\
    Props_FKalman.spread_out (most_recent (kp_max_times K_kalman) (map (fun e => i_time (fst e)) es)) /\
    true = negb (Z.of_nat (List.length es) <? kp_min_stable K_kalman)) /\
  replies_ok (fun rs => codes [0] rs && counts [1] rs) (answers 5 H_long [CPredict []]) = true.
Proof.
  split; [exact C_ordinary|]. split; [exact moderate_kalman_example|]. split; [reflexivity|].
  split; [assert (E := C_rate); split; [apply Rle_trans with 180%R; [lra|apply Req_le; symmetry; exact E]|apply Rle_trans with 180%R; [apply Req_le; exact E|lra]]|].
  split; [split; reflexivity|]. split.
  { apply C_case; [reflexivity|compute_true|intros s; apply after_params; [compute_true|reflexivity]|].
    constructor; [exact I|]. cbn [map]. repeat (constructor; [apply lie_ok; [lia|compute_true]|]). constructor. }
  split; [compute_true|]. split; [|compute_true].
  apply C_case; [reflexivity|compute_true|intros s; apply after_params; [compute_true|reflexivity]|].
  constructor; [exact I|]. cbn [map]. repeat (constructor; [apply lie_ok; [lia|compute_true]|]). constructor.
Qed.

(** ** C29, C30 with smoothing, mitigation and projection along the normal *)
Definition C_next : Input := tick EMove 60 40 1074 50.
Definition C_up : Input := tick EUp 60 40 1074 50.
Definition plain_check (v : float32) : bool := is_finite v && (Bleb (b32 0 0) v && Bleb v (b32 1 2)).
Definition finite_there (r : Result) : bool := is_finite (vx (r_pos r) : float32) && is_finite (vy (r_pos r) : float32) && plain_check (r_pressure r).
Definition two_or_more (rs : list reply) : bool :=
  match rs with [RResults OkStatus out] => Nat.leb 2 (List.length out) && forallb finite_there out | _ => false end.
Lemma plain_ok : forall v, plain_check v = true -> plain_value v /\ (0 <= B2R v <= 4)%R.
Proof.
  intros v H. apply andb_prop in H. destruct H as [F H]. apply andb_prop in H. destruct H as [H1 H2].
  assert (E0 : B2R (b32 0 0) = 0%R) by (vm_compute; reflexivity). assert (E1 : B2R (b32 1 2) = 4%R) by (vm_compute; lra).
  apply (leb_R 24 128) in H1; [|reflexivity|exact F]. apply (leb_R 24 128) in H2; [|exact F|reflexivity]. rewrite E0 in H1. rewrite E1 in H2.
  split; [split; [exact F|split; [exact H1|]]|split; [exact H1|exact H2]].
  eapply Rle_trans; [exact H2|]. change 4%R with (bpow radix2 2). apply bpow_le. lia.
Qed.
Definition known_check (i : Input) : bool := plain_check (i_pressure i) && plain_check (i_tilt i) && plain_check (i_orient i).
Lemma known_ok : forall i, known_check i = true -> plain_value (i_pressure i) /\ plain_value (i_tilt i) /\ in_turn_closed (i_orient i).
Proof.
  intros i H. apply andb_prop in H. destruct H as [H H3]. apply andb_prop in H. destruct H as [H1 H2].
  split; [apply plain_ok; exact H1|]. split; [apply plain_ok; exact H2|]. destruct (plain_ok _ H3) as [[F _] R]. split; [exact F|].
  pose proof turn_order. lra.
Qed.
Example C29_float_example : exists s es seen, after_seen 5 H_kalman s es seen /\ ps_params s = Some K_params /\
  wp_enabled (p_wobble K_params) = true /\ lp_enabled (pp_loop (p_position K_params)) = true /\ sy_normal (p_stylus K_params) = true /\
  (forall i, In i (seen ++ [C_next; C_up]) -> plain_value (i_pressure i) /\ plain_value (i_tilt i) /\ in_turn_closed (i_orient i)) /\
  replies_ok two_or_more (answers 5 H_kalman [CUpdate C_next []]) = true /\
  replies_ok two_or_more (answers 5 H_kalman [CUpdate C_up []]) = true /\
  replies_ok two_or_more (answers 5 H_kalman [CPredict []]) = true.
Proof.
  destruct (after_seen_check 5 H_kalman (fun s es seen => forallb known_check (seen ++ [C_next; C_up]))) as (s & es & seen & AS & H); [reflexivity|compute_true|].
  exists s, es, seen. split; [exact AS|]. split.
  { assert (AF : after 5 H_kalman s) by (destruct AS as (m & rs & R & P & _); exists m, rs; auto). revert AF. apply after_params; [compute_true|reflexivity]. }
  split; [reflexivity|]. split; [reflexivity|]. split; [reflexivity|]. split.
  { intros i I1. apply known_ok. rewrite forallb_forall in H. exact (H i I1). }
  split; [compute_true|]. split; compute_true.
Qed.
