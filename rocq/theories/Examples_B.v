(** * C52 in binary32/binary64: a concrete stroke that meets the hypotheses. *)
From Coq Require Import ZArith Bool List Lia String Reals Lra Sorted.
From Flocq Require Import Core.Core IEEE754.BinarySingleNaN.
From Verif Require Export Props_FBounded Examples_I.
Import ListNotations.
Open Scope Z_scope.

#[local] Existing Instance demo_arith.
Transparent b32 b64.
(** The recommended spring and drag at 180 Hz; mitigation, projection and prediction on, smoothing off. *)
Definition P_box : StrokeModelParams :=
  mkParams demo_no_wobble demo_position_loop (demo_sampling 100) demo_stylus_normal PredStrokeEnd.
Lemma box_damped : @damped_params (fun x => x) P_box.
Proof.
  assert (ER : B2R (sp_rate (p_sampling P_box) : float64) = 180%R) by (apply literal_R; vm_compute; reflexivity).
  set (r := sp_rate (p_sampling P_box) : float64) in *. set (k := pp_spring (p_position P_box) : float32). set (d := pp_drag (p_position P_box) : float32).
  assert (K1 : Bleb (b32 22 (-16)) k = true) by (vm_compute; reflexivity). assert (K2 : Bleb k (b32 1 (-11)) = true) by (vm_compute; reflexivity).
  assert (D1 : Bleb (b32 72 0) d = true) by (vm_compute; reflexivity). assert (D2 : Bleb d (b32 72 0) = true) by (vm_compute; reflexivity).
  assert (FK : is_finite k = true) by (vm_compute; reflexivity). assert (FD : is_finite d = true) by (vm_compute; reflexivity).
  destruct (norm_R 24 128 prec_gt_0_32 prec_lt_emax_32 22 (-16)) as [F1 E1]; [lia|lia|lia|].
  destruct (norm_R 24 128 prec_gt_0_32 prec_lt_emax_32 1 (-11)) as [F2 E2]; [lia|lia|lia|].
  destruct (norm_R 24 128 prec_gt_0_32 prec_lt_emax_32 72 0) as [F3 E3]; [lia|lia|lia|].
  apply (leb_R 24 128) in K1; [|exact F1|exact FK]. apply (leb_R 24 128) in K2; [|exact FK|exact F2].
  apply (leb_R 24 128) in D1; [|exact F3|exact FD]. apply (leb_R 24 128) in D2; [|exact FD|exact F3].
  unfold b32 in *. rewrite E1 in K1. rewrite E2 in K2. rewrite E3 in D1, D2.
  assert (V1 : F2R (Float radix2 22 (-16)) = (22 / 65536)%R) by (unfold F2R; cbn; lra).
  assert (V2 : F2R (Float radix2 1 (-11)) = (/ 2048)%R) by (unfold F2R; cbn; lra).
  assert (V3 : F2R (Float radix2 72 0) = 72%R) by (unfold F2R; cbn; lra).
  rewrite V1 in K1. rewrite V2 in K2. rewrite V3 in D1, D2. assert (DE : B2R d = 72%R) by (apply Rle_antisym; assumption).
  constructor.
  - exact steady_example.
  - change (1 <= B2R k * (B2R d * B2R d) <= 3)%R. rewrite DE. lra.
  - change (16 <= B2R d)%R. lra.
  - change (17 / 4 <= B2R r * (B2R k * B2R d))%R. rewrite ER, DE. lra.
  - vm_compute. discriminate.
  - vm_compute. reflexivity.
  - reflexivity.
Qed.
Definition unit_check (i : Input) : bool := Examples_I.within (vx (i_pos i)) 1 0 && Examples_I.within (vy (i_pos i)) 1 0.
Lemma coarse_tick : forall e x y k pr, Z.abs k < 2 ^ 40 -> tick_check (tick e x y k pr) = true -> unit_check (tick e x y k pr) = true ->
  @coarse_input (fun x => x) 1 (tick e x y k pr).
Proof.
  intros e x y k pr K H C. destruct (tick_ok e x y k pr K H) as [M _]. split; [exact M|]. split.
  - apply andb_prop in C. destruct C as [C1 C2]. apply within_le in C1; [|lia|lia]. apply within_le in C2; [|lia|lia].
    assert (B : F2R (Float radix2 1 0) = 1%R) by (unfold F2R; cbn; lra). rewrite B in C1, C2. split; assumption.
  - destruct (norm_R 53 1024 prec_gt_0_64 prec_lt_emax_64 k (-10)) as [F E]; [lia|lia|lia|].
    exists (64 * k). change (B2R (b64 k (-10)) = (IZR (64 * k) / 65536)%R). unfold b64. rewrite E, mult_IZR. unfold F2R. cbn [Fnum Fexp]. cbn. lra.
Qed.
(** All inputs within 1 of the origin, among them a rejected Move (it goes back in time). *)
Definition H_box : list call := CReset P_box :: CUpdate kdown [] :: map (fun i => CUpdate i []) (kmoves ++ [tick EMove 0 50 1034 60; tick EMove (-90) 50 1104 60]).
Example C52_float_example : exists s es seen, Forall (call_input_ok (@coarse_input (fun x => x) 1)) H_box /\ @coarse_input (fun x => x) 1 (tick EUp (-90) 90 1134 60) /\
  (bpow radix2 (-60) <= 1 <= bpow radix2 30)%R /\ after_seen 5 H_box s es seen /\ in_stroke s = true /\ ps_params s = Some P_box /\ p_prediction P_box = PredStrokeEnd /\
  @damped_params (fun x => x) P_box /\ @boxed_inputs (fun x => x) 1 P_box (map fst es) seen /\ (10 <= List.length (List.concat (map snd es)))%nat /\
  replies_ok nonempty (answers 5 H_box [CUpdate (tick EUp (-90) 90 1134 60) []]) = true /\
  replies_ok nonempty (answers 5 H_box [CPredict []]) = true.
Proof.
  destruct (after_seen_check 5 H_box (fun s es seen => in_stroke s && Nat.leb 10 (List.length (List.concat (map snd es))))) as (s & es & seen & AS & H); [reflexivity|compute_true|].
  apply andb_prop in H. destruct H as [H1 H2]. apply Nat.leb_le in H2. exists s, es, seen.
  assert (FH : Forall (call_input_ok (@coarse_input (fun x => x) 1)) H_box).
  { constructor; [exact I|]. constructor; [apply coarse_tick; [lia|compute_true|compute_true]|]. cbn [map kmoves app].
    repeat (constructor; [apply coarse_tick; [lia|compute_true|compute_true]|]). constructor. }
  assert (PP : ps_params s = Some P_box).
  { assert (AF : after 5 H_box s) by (destruct AS as (m & rs & R & P & _); exists m, rs; auto). revert AF. apply after_params; [compute_true|reflexivity]. }
  split; [exact FH|]. split; [apply coarse_tick; [lia|compute_true|compute_true]|].
  split; [split; [apply (bpow_le radix2 (-60) 0); lia|apply (bpow_le radix2 0 30); lia]|].
  split; [exact AS|]. split; [exact H1|]. split; [exact PP|]. split; [reflexivity|]. split; [exact box_damped|]. split.
  { destruct (seen_in _ 5 H_box s es seen AS FH) as [F1 F2]. apply coarse_boxed; [reflexivity|exact F1|exact F2|].
    destruct (orderly_state 5 H_box s es seen AS) as (m & rs & R & (T1 & T2 & _) & _ & _ & J).
    unfold in_stroke in H1. rewrite T2 in H1. destruct (m_last m) as [last|] eqn:ML; [|discriminate H1]. rewrite T1 in PP. apply (J P_box last PP eq_refl). }
  split; [exact H2|]. split; [compute_true|compute_true].
Qed.
