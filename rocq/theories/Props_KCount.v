(** * C21 for Kalman prediction (exact arithmetic). *)
From Coq Require Import ZArith Bool List Reals Lra Lia.
From Flocq Require Import Core.Raux.
From Verif Require Export Props_Predict.
Import ListNotations.
Open Scope R_scope.

(** A Kalman prediction consists of [n1] results that catch up with the estimated
    position, the position of the last of them, and [n2] results that extend it.
    [n1] is limited by the distance from the last result to that position and by
    [min_catchup_velocity], [n2] by [prediction_interval]. *)
Theorem C21_kalman_prediction_count : forall (A := real_arith) fuel hist s p kp es seen rs out,
  after_seen fuel hist s es seen -> ps_params s = Some p -> p_prediction p = PredKalman kp ->
  lp_enabled (pp_loop (p_position p)) = false ->
  answers fuel hist [CPredict rs] = Ret [RResults OkStatus out] ->
  sorted_if_smoothing (p_wobble p) seen -> out <> [] ->
  let rate := sp_rate (p_sampling p) in
  exists z r (n1 n2 : nat), back (List.concat (map snd es)) = Some z /\
    List.length out = (n1 + n2)%nat /\ (1 <= n1)%nat /\ nth_error out (n1 - 1) = Some r /\
    (n1 <= Nat.max 1 (Z.to_nat (Zceil (dist (r_pos z) (r_pos r) / kp_catchup kp * rate))))%nat /\
    (n2 <= Z.to_nat (Zceil (kp_interval kp * rate)))%nat.
Proof.
  intros A fuel hist s p kp es seen rs out AS P PK L AN SO NE rate. subst A.
  destruct (C40_kalman_prediction _ _ _ _ _ _ _ _ _ AS P PK L AN SO) as (ws & q & z & _ & _ & _ & BZ & H). cbv zeta in H.
  destruct (_ <? _)%Z; [contradiction|].
  assert (V : validate_params p = OkStatus).
  { destruct (remembered_state _ _ _ _ _ AS) as (m & rs0 & R0 & (T1 & _) & G & _). apply (g_valid _ G). congruence. }
  destruct (C41_confidence_limits_extension p kp (combine (map fst es) ws) q (estimate kp (combine (map fst es) ws)) V PK) as (_ & B1 & _).
  destruct (valid_kalman_R p kp V PK) as (_ & _ & _ & _ & VC & _). destruct (valid_R p V) as (_ & _ & VR & _). fold rate in H, B1, VR.
  set (e := estimate kp (combine (map fst es) ws)) in *. set (n1 := Z.to_nat (catch_up_steps kp rate z e)) in *.
  assert (N1 : (1 <= n1)%nat) by (unfold n1, catch_up_steps; lia).
  destruct H as (cx & cy & ex & ey & (_ & _ & X & _) & (_ & _ & Y & _) & _ & LEN & NTH).
  destruct (nth_error out (n1 - 1)) as [r|] eqn:EN.
  2:{ apply nth_error_None in EN. rewrite LEN in EN. lia. }
  exists z, r, n1, (Z.to_nat (Zceil (kp_interval kp * rate * confidence kp (combine (map fst es) ws) q e))).
  split; [exact BZ|]. split; [exact LEN|]. split; [exact N1|]. split; [exact EN|]. split; [|exact B1].
  destruct (NTH _ _ EN) as (_ & C & _). specialize (C ltac:(lia)). destruct C as (C & _).
  replace (S (n1 - 1)) with n1 in C by lia. rewrite X, Y in C.
  assert (EP : r_pos r = ke_pos e) by (rewrite C; destruct (ke_pos e); reflexivity).
  rewrite EP. clear - VC VR. subst n1. unfold catch_up_steps. set (d := dist (r_pos z) (ke_pos e)).
  assert (D0 : 0 <= d) by apply dist_pos.
  set (m := Rmax _ (kp_catchup kp)). assert (M : kp_catchup kp <= m) by apply Rmax_r. clearbody m d.
  assert (LE : Rmin d fmaxval / m * rate <= d / kp_catchup kp * rate).
  { apply Rmult_le_compat_r; [lra|]. apply Rle_trans with (d / m).
    - apply Rmult_le_compat_r; [left; apply Rinv_0_lt_compat; lra|apply Rmin_l].
    - apply Rmult_le_compat_l; [exact D0|]. apply Rinv_le_contravar; lra. }
  apply Zceil_le in LE. lia.
Qed.
