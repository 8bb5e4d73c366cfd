(** * C51: a concrete stroke that meets the hypotheses in floating point. *)
From Coq Require Import ZArith Bool List Lia String Reals Lra Sorted.
From Flocq Require Import Core.Core IEEE754.BinarySingleNaN.
From Verif Require Export Props_FAccept Examples_I Examples_Q.
Import ListNotations.
Open Scope Z_scope.

#[local] Existing Instance arc_arith.
Transparent b32 b64.
(** The absolute value stands in for acosf, as in C45_example: between 0 and 1 on [-1, 1]. *)
Lemma arc_sane : acosf_sane arc.
Proof.
  intros x L1 L2. assert (F : is_finite x = true).
  { destruct x as [s|s| |s m e H]; try reflexivity; [|discriminate L2]. destruct s; [vm_compute in L1; discriminate L1|vm_compute in L2; discriminate L2]. }
  destruct (norm_R 24 128 prec_gt_0_32 prec_lt_emax_32 (-1) 0) as [F1 E1]; [lia|lia|lia|]. destruct (norm_R 24 128 prec_gt_0_32 prec_lt_emax_32 1 0) as [F2 E2]; [lia|lia|lia|].
  apply (leb_R 24 128) in L1; [|exact F1|exact F]. apply (leb_R 24 128) in L2; [|exact F|exact F2]. unfold b32 in L1, L2. rewrite E1 in L1. rewrite E2 in L2.
  unfold F2R in L1, L2. cbn in L1, L2. unfold arc. rewrite is_finite_Babs, B2R_Babs. split; [exact F|]. split; [apply Rabs_pos|]. apply Rabs_le. lra.
Qed.

(** Smoothing on, the recommended spring and drag, 180 Hz, at most 100 results per call,
    the angle between results limited to 1/8, at times that are multiples of 1/1024 s. *)
Definition X_params : StrokeModelParams :=
  mkParams (mkWobbleParams true (b64 1 (-5)) (flit 131 100) (flit 144 100))
    (mkPositionParams (flit 11 32400) (flit 72 1) default_loop)
    (mkSamplingParams (dlit 180 1) (flit 1 1000) 20 100 (b64 1 (-3)))
    (mkStylusParams 10 false (-1) (dlit (-1) 1)) PredStrokeEnd.
Definition X_inp (e : event_type) (x y k : Z) : Input :=
  mkInput e (mkVec2 (flit x 100) (flit y 100)) (b64 k (-10)) (flit 1 2) (flit 1 2) (flit 3 1).
Lemma X_time : forall e x y k, Z.abs k < 2 ^ 40 -> is_finite (i_time (X_inp e x y k) : float64) = true /\ B2R (i_time (X_inp e x y k) : float64) = (IZR k / 1024)%R.
Proof.
  intros e x y k K. destruct (norm_R 53 1024 prec_gt_0_64 prec_lt_emax_64 k (-10)) as [F E]; [lia|lia|lia|].
  split; [exact F|]. cbn [i_time X_inp]. unfold b64. rewrite E. unfold F2R. cbn [Fnum Fexp]. cbn. lra.
Qed.
Definition X_check (i : Input) : bool := Examples_I.within (vx (i_pos i)) 1 26 && Examples_I.within (vy (i_pos i)) 1 26.
Lemma X_within : forall i, X_check i = true -> fin_le (bpow radix2 26) (vx (i_pos i)) /\ fin_le (bpow radix2 26) (vy (i_pos i)).
Proof.
  intros i H. apply andb_prop in H. destruct H as [H1 H2].
  assert (B : F2R (Float radix2 1 26) = bpow radix2 26) by (unfold F2R; cbn [Fnum Fexp]; ring).
  apply within_le in H1; [|lia|lia]. apply within_le in H2; [|lia|lia]. rewrite B in H1, H2. split; assumption.
Qed.
Lemma X_ticking : forall e x y k, Z.abs k < 2 ^ 40 -> X_check (X_inp e x y k) = true -> @ticking_input arc (X_inp e x y k).
Proof.
  intros e x y k K C. destruct (X_time e x y k K) as [F E]. apply X_within in C. destruct C as [C1 C2].
  assert (Q : forall v : float32, Examples_I.within v 1 100 = true -> fin_le (bpow radix2 100) v).
  { intros v H. apply within_le in H; [|lia|lia]. unfold F2R in H. cbn [Fnum Fexp] in H. rewrite Rmult_1_l in H. exact H. }
  split; [split; [split; (eapply fin_le_mono; [eassumption|apply bpow_le; lia])|split; [split; [exact F|]|split; [apply Q; compute_true|split; apply Q; compute_true]]]|].
  - unfold arc_arith in *. rewrite E. unfold Rdiv. rewrite Rabs_mult, (Rabs_pos_eq (/ 1024)) by lra. rewrite <- abs_IZR.
    assert (IZR (Z.abs k) <= IZR (2 ^ 40))%R by (apply IZR_le; lia).
    assert (EV : IZR (2 ^ 40) = 1099511627776%R) by (vm_compute; reflexivity). lra.
  - exists (1024 * k). unfold arc_arith in *. rewrite E, mult_IZR. field.
Qed.
Definition X_down : Input := X_inp EDown 0 0 1024.
Definition X_moves : list Input := [X_inp EMove 10 0 1034; X_inp EMove 20 5 1044; X_inp EMove 20 20 1054; X_inp EMove 10 20 1054; X_inp EMove 10 (-20) 1254].

Lemma X_steady : @steady_params arc X_params.
Proof.
  split; [|split; [vm_compute; discriminate|]].
  - assert (ER : B2R (sp_rate (p_sampling X_params) : float64) = 180%R) by (apply literal_R; vm_compute; reflexivity).
    set (r := sp_rate (p_sampling X_params) : float64) in *. set (k := pp_spring (p_position X_params) : float32). set (d := pp_drag (p_position X_params) : float32).
    assert (K1 : Bleb (b32 1 (-12)) k = true) by (vm_compute; reflexivity). assert (K2 : Bleb k (b32 1 0) = true) by (vm_compute; reflexivity).
    assert (D1 : Bleb (b32 72 0) d = true) by (vm_compute; reflexivity). assert (D2 : Bleb d (b32 72 0) = true) by (vm_compute; reflexivity).
    assert (FK : is_finite k = true) by (vm_compute; reflexivity). assert (FD : is_finite d = true) by (vm_compute; reflexivity).
    destruct (norm_R 24 128 prec_gt_0_32 prec_lt_emax_32 1 (-12)) as [F1 E1]; [lia|lia|lia|].
    destruct (norm_R 24 128 prec_gt_0_32 prec_lt_emax_32 1 0) as [F2 E2]; [lia|lia|lia|].
    destruct (norm_R 24 128 prec_gt_0_32 prec_lt_emax_32 72 0) as [F3 E3]; [lia|lia|lia|].
    apply (leb_R 24 128) in K1; [|exact F1|exact FK]. apply (leb_R 24 128) in K2; [|exact FK|exact F2].
    apply (leb_R 24 128) in D1; [|exact F3|exact FD]. apply (leb_R 24 128) in D2; [|exact FD|exact F3].
    unfold b32 in *. rewrite E1 in K1. rewrite E2 in K2. rewrite E3 in D1, D2.
    assert (V1 : F2R (Float radix2 1 (-12)) = (/ 4096)%R) by (unfold F2R; cbn; lra).
    assert (V2 : F2R (Float radix2 1 0) = 1%R) by (unfold F2R; cbn; lra).
    assert (V3 : F2R (Float radix2 72 0) = 72%R) by (unfold F2R; cbn; lra).
    rewrite V1 in K1. rewrite V2 in K2. rewrite V3 in D1, D2. assert (DE : B2R d = 72%R) by (apply Rle_antisym; assumption).
    constructor.
    + split; [exact FK|]. change (/ 1048576 <= B2R k <= 1048576)%R. lra.
    + split; [exact FD|]. change (0 < B2R d)%R. lra.
    + change (1 <= B2R r <= 16384)%R. rewrite ER. lra.
    + change (2 * B2R d <= B2R r)%R. rewrite ER. lra.
    + change (2 <= B2R r * (B2R k * B2R d))%R. rewrite ER, DE. lra.
  - intros l _. repeat split; compute_true.
Qed.
Lemma X_timeout : B2R (wp_timeout (p_wobble X_params) : float64) = (/ 32)%R.
Proof.
  destruct (norm_R 53 1024 prec_gt_0_64 prec_lt_emax_64 1 (-5)) as [F E]; [lia|lia|lia|].
  change (wp_timeout (p_wobble X_params) : float64) with (b64 1 (-5)). unfold b64. rewrite E. unfold F2R. cbn. lra.
Qed.
Lemma X_rate : B2R (sp_rate (p_sampling X_params) : float64) = 180%R.
Proof. apply literal_R; vm_compute; reflexivity. Qed.
Lemma X_angle : B2R (sp_max_angle (p_sampling X_params) : float64) = (/ 8)%R.
Proof.
  destruct (norm_R 53 1024 prec_gt_0_64 prec_lt_emax_64 1 (-3)) as [F E]; [lia|lia|lia|].
  change (sp_max_angle (p_sampling X_params) : float64) with (b64 1 (-3)). unfold b64. rewrite E. unfold F2R. cbn. lra.
Qed.

(** Five Moves, the last two simultaneous with and 0.2 s after the one before; at most 40
    results each. *)
Example C51_float_example :
  acosf_sane arc /\ validate_params X_params = OkStatus /\ @steady_params arc X_params /\
  i_event X_down = EDown /\ Forall (fun i : Input => i_event i = EMove) X_moves /\
  @moderate_inputs arc X_params (X_down :: X_moves) (X_down :: X_moves) /\
  Forall (orientation_acceptable arc) (X_down :: X_moves) /\
  @paced_f arc X_params 40 X_down X_moves /\ @turns_within arc X_params 40 /\
  (40 <= sp_max_outputs (p_sampling X_params)) /\
  (Z.of_nat (List.length X_moves) * Z.max 1 40 < 1048576).
Proof.
  split; [exact arc_sane|]. split; [vm_compute; reflexivity|]. split; [exact X_steady|]. split; [reflexivity|]. split; [repeat constructor|].
  assert (TM : forall e x y k, Z.abs k < 2 ^ 40 -> B2R (i_time (X_inp e x y k) : float64) = (IZR k / 1024)%R) by (intros; apply X_time; assumption).
  split.
  { apply ticking_inputs.
    - unfold X_moves, X_down. repeat (constructor; [apply X_ticking; [lia|compute_true]|]). constructor.
    - unfold X_moves, X_down. repeat (constructor; [apply X_ticking; [lia|compute_true]|]). constructor.
    - intros _. split; [reflexivity|]. exists 1%R. unfold smoothing_within. pose proof X_timeout as XT. unfold arc_arith in *. rewrite XT.
      split; [lra|]. split; [lra|]. split; [|split].
      + unfold X_moves, X_down. repeat (constructor; [apply X_within; compute_true|]). constructor.
      + unfold X_moves, X_down. repeat (constructor; [|first [apply HdRel_nil | apply HdRel_cons; rewrite !TM by lia; lra]]). constructor.
      + cbn [List.length X_moves INR]. lra. }
  split.
  { unfold X_moves, X_down. repeat (constructor; [right; split; vm_compute; reflexivity|]). constructor. }
  split.
  { unfold X_moves, X_down. cbn [paced_f]. unfold within_steps. pose proof X_rate as XR. unfold arc_arith in *. rewrite XR, !TM by lia.
    repeat (split; [first [vm_compute; reflexivity | lra]|]). exact I. }
  split; [right; pose proof X_angle as XA; unfold arc_arith in *; rewrite XA; lra|]. split; vm_compute; [discriminate|reflexivity].
Qed.
