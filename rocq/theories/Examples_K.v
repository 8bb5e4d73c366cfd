(** * C49: a stroke with a Kalman predictor that meets the hypotheses. *)
From Coq Require Import ZArith Bool List Lia String Reals Lra Sorted.
From Flocq Require Import Core.Core IEEE754.BinarySingleNaN.
From Verif Require Export Noise Props_FKalman Examples_I.
Import ListNotations.
Open Scope Z_scope.

#[local] Existing Instance demo_arith.
Transparent b32 b64.

(** kalman_predictor_test.cc:41-50, the other fields as in params.h:230-308. *)
Definition K_kalman : KalmanParams :=
  mkKalmanParams (decimal (fun x => x) 26458 100000000) (decimal (fun x => x) 26458 1000000) 4 20 (fl 1 100) (fl 1 2) (fl 1 10) (db 1 60)
    (mkConfidenceParams 20 (fl 4 100) (fl 3 1) (fl 15 1) (fl 2 10) (fl 4 10)).
(** The recommended parameters, with smoothing, mitigation and projection on. *)
Definition K_params : StrokeModelParams :=
  mkParams demo_wobble demo_position_loop (demo_sampling 100) demo_stylus_normal (PredKalman K_kalman).
Definition H_kalman : list call := CReset K_params :: CUpdate kdown [] :: map (fun i => CUpdate i []) kmoves.

Lemma fin_check : forall (x : float32) m e k, Examples_I.within x m e = true -> (0 <= m < 2 ^ 24)%Z -> (-100 <= e <= 100)%Z -> (F2R (Float radix2 m e) <= k)%R -> (Rabs (B2R x) <= k)%R.
Proof. intros x m e k H M E K. apply within_le in H; [|exact M|exact E]. destruct H as [_ H]. lra. Qed.

Example moderate_kalman_example : @moderate_kalman (fun x => x) K_kalman.
Proof.
  assert (V : F2R (Float radix2 1 0) = 1%R) by (unfold F2R; cbn; lra).
  split; [exists cert_default; exact (default_certified (fun x => x))|].
  split; [vm_compute; discriminate|]. split; [vm_compute; discriminate|].
  split; [apply (fin_check _ 1 0); [vm_compute; reflexivity|lia|lia|rewrite V; lra]|].
  split; [apply (fin_check _ 1 0); [vm_compute; reflexivity|lia|lia|rewrite V; lra]|].
  destruct (norm_R 53 1024 prec_gt_0_64 prec_lt_emax_64 1 0) as [F1 E1]; [lia|lia|lia|].
  assert (T : Bleb (kp_interval K_kalman : float64) (b64 1 0) = true) by (vm_compute; reflexivity).
  assert (FT : is_finite (kp_interval K_kalman : float64) = true) by (vm_compute; reflexivity).
  apply (leb_R 53 1024) in T; [|exact FT|exact F1]. unfold b64 in T. rewrite E1 in T. rewrite V in T. exact T.
Qed.

Definition K_times (ts : list float64) : bool :=
  Nat.leb (List.length ts) 10 && (is_finite (last ts (B754_zero false)) && is_finite (hd (B754_zero false) ts)) &&
  (Bleb (hd (B754_zero false) ts) (b64 1024 (-10)) && Bleb (b64 1054 (-10)) (last ts (B754_zero false))).
Lemma K_spread : forall ts, K_times ts = true -> spread_out ts.
Proof.
  intros ts H. apply andb_prop in H. destruct H as [H H2]. apply andb_prop in H. destruct H as [H1 F]. apply andb_prop in F. destruct F as [FA FB].
  apply andb_prop in H2. destruct H2 as [L1 L2]. apply Nat.leb_le in H1.
  destruct (norm_R 53 1024 prec_gt_0_64 prec_lt_emax_64 1024 (-10)) as [F1 E1]; [lia|lia|lia|].
  destruct (norm_R 53 1024 prec_gt_0_64 prec_lt_emax_64 1054 (-10)) as [F2 E2]; [lia|lia|lia|].
  apply (leb_R 53 1024) in L1; [|exact FB|exact F1]. apply (leb_R 53 1024) in L2; [|exact F2|exact FA]. unfold b64 in L1, L2. rewrite E1 in L1. rewrite E2 in L2.
  assert (V1 : F2R (Float radix2 1024 (-10)) = 1%R) by (unfold F2R; cbn; lra). assert (V2 : F2R (Float radix2 1054 (-10)) = (1054 / 1024)%R) by (unfold F2R; cbn; lra).
  rewrite V1 in L1. rewrite V2 in L2. unfold spread_out. assert (N : (IZR (Z.of_nat (List.length ts)) <= 10)%R) by (apply IZR_le; lia). lra.
Qed.

Example C49_kalman_example : exists s es seen, after_seen 5 H_kalman s es seen /\ in_stroke s = true /\ ps_params s = Some K_params /\
  @steady_params (fun x => x) K_params /\ @moderate_kalman (fun x => x) K_kalman /\ @moderate_inputs (fun x => x) K_params (map fst es) seen /\
  spread_out (most_recent (kp_max_times K_kalman) (map (fun e => i_time (fst e)) es)) /\
  (5 <= List.length (List.concat (map snd es)) <= 100)%nat /\
  replies_ok (fun rs => match rs with [RResults OkStatus out] => Nat.leb 3 (List.length out) && Nat.leb (List.length out) 100 | _ => false end) (answers 5 H_kalman [CPredict []]) = true.
Proof.
  destruct (after_seen_check 5 H_kalman (fun s es seen => in_stroke s && (Nat.leb 5 (List.length (List.concat (map snd es))) && (Nat.leb (List.length (List.concat (map snd es))) 100 && Nat.leb (List.length (map fst es)) 10)) &&
      K_times (most_recent (kp_max_times K_kalman) (map (fun e => i_time (fst e)) es))))
    as (s & es & seen & AS & H); [reflexivity|compute_true|].
  apply andb_prop in H. destruct H as [H HK]. apply andb_prop in H. destruct H as [H1 H]. apply andb_prop in H. destruct H as [H2 H3]. apply andb_prop in H3. destruct H3 as [H3 H4]. apply Nat.leb_le in H2, H3, H4.
  exists s, es, seen. split; [exact AS|]. split; [exact H1|]. split.
  { assert (AF : after 5 H_kalman s) by (destruct AS as (m & rs & R & P & _); exists m, rs; auto). revert AF. apply after_params; [compute_true|reflexivity]. }
  split; [exact steady_example|]. split; [exact moderate_kalman_example|].
  assert (TK : Forall (call_input_ok (@ticking_input (fun x => x))) H_kalman).
  { constructor; [exact I|]. constructor; [apply tick_ok; [lia|compute_true]|]. cbn [map kmoves].
    repeat (constructor; [apply tick_ok; [lia|compute_true]|]). constructor. }
  assert (NE : Forall near_input (map fst es)).
  { apply (seen_in near_input 5 H_kalman s es seen AS). constructor; [exact I|]. constructor; [apply near_ok; compute_true|]. cbn [map kmoves].
    repeat (constructor; [apply near_ok; compute_true|]). constructor. }
  assert (SE : seen = map fst es) by (apply (seen_granted 5 H_kalman s es seen AS); compute_true).
  split; [|split; [exact (K_spread _ HK)|split; [lia|compute_true]]].
  destruct (seen_in _ 5 H_kalman s es seen AS TK) as [F1 F2]. apply ticking_inputs; [exact F1|exact F2|].
  rewrite SE. pose proof (near_smoothable _ NE ltac:(lia)) as K. exact K.
Qed.
