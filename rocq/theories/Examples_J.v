(** * C22, C23 in binary64 with loop mitigation on, for the stroke, its Up and both predictors. *)
From Coq Require Import ZArith Bool List Lia String Reals Lra Sorted.
From Flocq Require Import Core.Core IEEE754.BinarySingleNaN.
From Verif Require Export Props_FPred Examples_K.
Import ListNotations.
Open Scope Z_scope.

#[local] Existing Instance demo_arith.
Transparent b32 b64.

(** A stroke ending in an Up or a prediction, with mitigation on. *)
Example C23_ordinary_example : exists s es seen (l : Input), after_seen 5 H_ticks s es seen /\ ps_params s = Some P_loop /\ ps_last s = Some l /\
  lp_enabled (pp_loop (p_position P_loop)) = true /\ i_event kup = EUp /\ p_prediction P_loop = PredStrokeEnd /\
  @steady_params (fun x => x) P_loop /\ @moderate_input (fun x => x) kup /\
  @moderate_inputs (fun x => x) P_loop (map fst es) seen /\ @moderate_inputs (fun x => x) P_loop (map fst es ++ [kup]) (seen ++ [kup]) /\
  (5 <= List.length (List.concat (map snd es)) <= 100)%nat /\
  replies_ok nonempty (answers 5 H_ticks [CUpdate kup []]) = true /\ replies_ok nonempty (answers 5 H_ticks [CPredict []]) = true.
Proof.
  destruct C49_float_example as (s & es & seen & AS & IS & PP & SP & TK & TU & SM1 & SM2 & N & R1 & R2).
  unfold in_stroke in IS. destruct (ps_last s) as [l|] eqn:L; [|discriminate IS].
  destruct (seen_in _ 5 H_ticks s es seen AS TK) as [F1 F2].
  exists s, es, seen, l. split; [exact AS|]. split; [exact PP|]. split; [exact L|]. split; [reflexivity|]. split; [reflexivity|]. split; [reflexivity|]. split; [exact SP|].
  split; [apply TU|]. split; [apply ticking_inputs; assumption|].
  split; [apply ticking_inputs; [apply Forall_app; split; [exact F1|constructor; [exact TU|constructor]]|apply Forall_app; split; [exact F2|constructor; [exact TU|constructor]]|exact SM2]|].
  split; [exact N|]. split; [exact R1|exact R2].
Qed.

Definition time_check (r : Result) : bool := is_finite (r_time r : float64) && (Bleb (b64 0 0) (r_time r : float64) && Bleb (r_time r : float64) (b64 2 0)).
Lemma time_ok : forall r : Result, time_check r = true -> is_finite (r_time r : float64) = true /\ (Rabs (@result_R (fun x => x) r) <= 2147483648)%R.
Proof.
  intros r H. apply andb_prop in H. destruct H as [F H]. apply andb_prop in H. destruct H as [H1 H2]. split; [exact F|].
  destruct (norm_R 53 1024 prec_gt_0_64 prec_lt_emax_64 0 0) as [F1 E1]; [lia|lia|lia|]. destruct (norm_R 53 1024 prec_gt_0_64 prec_lt_emax_64 2 0) as [F2 E2]; [lia|lia|lia|].
  apply (leb_R 53 1024) in H1; [|exact F1|exact F]. apply (leb_R 53 1024) in H2; [|exact F|exact F2]. unfold b64 in H1, H2. rewrite E1 in H1. rewrite E2 in H2.
  assert (G : forall x : R, (F2R (Float radix2 0 0) <= x -> x <= F2R (Float radix2 2 0) -> Rabs x <= 2147483648)%R) by (unfold F2R; cbn; intros x A B; apply Rabs_le; lra).
  exact (G _ H1 H2).
Qed.

Definition some_check (rs : list reply) : bool :=
  match rs with [RResults OkStatus out] => Nat.leb 2 (List.length out) && Nat.leb (List.length out) 100 && forallb time_check out | _ => false end.
Lemma some_results : forall o, replies_ok some_check o = true -> exists out, o = Ret [RResults OkStatus out] /\ (2 <= List.length out <= 100)%nat /\
  Forall (fun r : Result => is_finite (r_time r : float64) = true /\ (Rabs (@result_R (fun x => x) r) <= 2147483648)%R) out.
Proof.
  intros o H. apply replies_ok_ex in H. destruct H as (rs & -> & H). destruct rs as [|[st|st out|] [|? ?]]; try discriminate H; destruct st as [|e|e]; try discriminate H.
  exists out. split; [reflexivity|]. cbn [some_check] in H. apply andb_prop in H. destruct H as [H F]. apply andb_prop in H. destruct H as [H1 H2]. apply Nat.leb_le in H1, H2.
  split; [split; assumption|]. apply Forall_forall. intros r IN. apply time_ok. exact (proj1 (forallb_forall _ _) F r IN).
Qed.

(** C22_float_predict_spacing and C22_float_up_spacing on the same stroke: mitigation on, times finite and at most 2^31. *)
Example C22_float_mitigated_example : exists s es (l : Input), after_stroke 5 H_ticks s es /\ ps_params s = Some P_loop /\ ps_last s = Some l /\
  prediction_on P_loop = true /\ lp_enabled (pp_loop (p_position P_loop)) = true /\
  Forall (fun r : Result => is_finite (r_time r : float64) = true) (List.concat (map snd es)) /\
  Sorted (@tick_gap (fun x => x)) (map fst es ++ [kup]) /\ Forall (fun i => Rabs (@time_R (fun x => x) i) <= 2147483648)%R (map fst es ++ [kup]) /\
  rate_moderate (B2R (sp_rate (p_sampling P_loop) : float64)) /\ (sp_max_outputs (p_sampling P_loop) <= 16777216)%Z /\
  exists up pred, answers 5 H_ticks [CUpdate kup []] = Ret [RResults OkStatus up] /\ answers 5 H_ticks [CPredict []] = Ret [RResults OkStatus pred] /\
    (2 <= List.length up <= 100)%nat /\ (2 <= List.length pred <= 100)%nat /\
    Forall (fun r : Result => is_finite (r_time r : float64) = true /\ (Rabs (@result_R (fun x => x) r) <= 2147483648)%R) (up ++ pred).
Proof.
  destruct C23_ordinary_example as (s & es & seen & l & AS & PP & PL & _ & _ & PE & SP & MI & MIS & MIU & N & R1 & R2).
  exists s, es, l. split; [exact (after_seen_after _ _ _ _ _ AS)|]. split; [exact PP|]. split; [exact PL|]. split; [reflexivity|]. split; [reflexivity|].
  split.
  { assert (H : Forall (@all_finite (fun x => x)) (List.concat (map snd es))).
    { assert (IS : in_stroke s = true) by (unfold in_stroke; rewrite PL; reflexivity).
      apply (C49_float_finite_results (fun x => x) 5 H_ticks s P_loop es seen AS IS PP SP MIS). eapply Nat.le_trans; [exact (proj2 N)|lia]. }
    eapply Forall_impl; [|exact H]. intros r (_ & _ & _ & K & _). exact K. }
  split; [apply MIU|].
  split.
  { apply moderate_times. apply Forall_app. split; [|constructor; [exact MI|constructor]].
    assert (TK : Forall (call_input_ok (@moderate_input (fun x => x))) H_ticks).
    { destruct C49_float_example as (_ & _ & _ & _ & _ & _ & _ & TK & _). eapply Forall_impl; [|exact TK]. intros [q| |i r|r| |] H; try exact I. apply H. }
    exact (proj1 (seen_in _ 5 H_ticks s es seen AS TK)). }
  destruct (steady_rate (fun x => x) P_loop SP) as [RM MO]. split; [exact RM|]. split; [exact MO|].
  assert (UPC : replies_ok some_check (answers 5 H_ticks [CUpdate kup []]) = true) by compute_true.
  assert (PRC : replies_ok some_check (answers 5 H_ticks [CPredict []]) = true) by compute_true.
  destruct (some_results _ UPC) as (up & A1 & N1 & F1).
  destruct (some_results _ PRC) as (pred & A2 & N2 & F2).
  exists up, pred. split; [exact A1|]. split; [exact A2|]. split; [exact N1|]. split; [exact N2|]. apply Forall_app. split; assumption.
Qed.
