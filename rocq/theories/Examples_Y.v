(** * C51 for strokes of any length: a zigzag of [n] Moves, for every [n] up to 10^9. *)
From Coq Require Import ZArith Bool List Lia String Reals Lra Sorted.
From Flocq Require Import Core.Core IEEE754.BinarySingleNaN.
From Verif Require Export Props_FAny Examples_X.
Import ListNotations.
Open Scope Z_scope.

#[local] Existing Instance arc_arith.
Transparent b32 b64.
(** The recommended spring and drag at 180 Hz, smoothing off, no limit on the angle. *)
Definition Y_params : StrokeModelParams :=
  mkParams (mkWobbleParams false (dlit 0 1) (flit 0 1) (flit 0 1))
    (mkPositionParams (flit 11 32400) (flit 72 1) default_loop)
    (mkSamplingParams (dlit 180 1) (flit 1 1000) 20 100 (dlit (-1) 1))
    (mkStylusParams 10 false (-1) (dlit (-1) 1)) PredStrokeEnd.
Lemma Y_damped : @damped_params arc Y_params.
Proof.
  assert (ER : B2R (sp_rate (p_sampling Y_params) : float64) = 180%R) by (apply literal_R; vm_compute; reflexivity).
  set (r := sp_rate (p_sampling Y_params) : float64) in *. set (k := pp_spring (p_position Y_params) : float32). set (d := pp_drag (p_position Y_params) : float32).
  assert (K1 : Bleb (b32 22 (-16)) k = true) by (vm_compute; reflexivity). assert (K2 : Bleb k (b32 1 (-11)) = true) by (vm_compute; reflexivity).
  assert (D1 : Bleb (b32 72 0) d = true) by (vm_compute; reflexivity). assert (D2 : Bleb d (b32 72 0) = true) by (vm_compute; reflexivity).
  assert (FK : is_finite k = true) by (vm_compute; reflexivity). assert (FD : is_finite d = true) by (vm_compute; reflexivity).
  destruct (norm_R 24 128 prec_gt_0_32 prec_lt_emax_32 22 (-16)) as [F1 E1]; [lia|lia|lia|].
  destruct (norm_R 24 128 prec_gt_0_32 prec_lt_emax_32 1 (-11)) as [F2 E2]; [lia|lia|lia|].
  destruct (norm_R 24 128 prec_gt_0_32 prec_lt_emax_32 72 0) as [F3 E3]; [lia|lia|lia|].
  apply (leb_R 24 128) in K1; [|exact F1|exact FK]. apply (leb_R 24 128) in K2; [|exact FK|exact F2].
  apply (leb_R 24 128) in D1; [|exact F3|exact FD]. apply (leb_R 24 128) in D2; [|exact FD|exact F3].
  unfold b32 in *. rewrite E1 in K1. rewrite E2 in K2. rewrite E3 in D1, D2.
  assert (V1 : F2R (Float radix2 22 (-16)) = (22 / 65536)%R) by (unfold F2R; cbn; lra).
  assert (V2 : F2R (Float radix2 1 (-11)) = (/ 2048)%R) by (unfold F2R; cbn; lra).
  assert (V3 : F2R (Float radix2 72 0) = 72%R) by (unfold F2R; cbn; lra).
  rewrite V1 in K1. rewrite V2 in K2. rewrite V3 in D1, D2. assert (DE : B2R d = 72%R) by (apply Rle_antisym; assumption).
  constructor.
  - destruct X_steady as (S & _ & L). split; [exact S|]. split; [vm_compute; discriminate|exact L].
  - change (1 <= B2R k * (B2R d * B2R d) <= 3)%R. rewrite DE. lra.
  - change (16 <= B2R d)%R. lra.
  - change (17 / 4 <= B2R r * (B2R k * B2R d))%R. rewrite ER, DE. lra.
  - vm_compute. discriminate.
  - vm_compute. reflexivity.
  - reflexivity.
Qed.

(** Every 8/1024 s, to (0.5, 0.2) and (-0.5, 0.2) in turn. *)
Definition zig (b : bool) (k : Z) : Input := X_inp EMove (if b then 50 else -50) 20 k.
Fixpoint zigzag (n : nat) (b : bool) (k : Z) : list Input :=
  match n with O => [] | S n' => zig b k :: zigzag n' (negb b) (k + 8) end.
Definition unit_check (i : Input) : bool := Examples_I.within (vx (i_pos i)) 1 0 && Examples_I.within (vy (i_pos i)) 1 0.
Lemma zig_coarse : forall e x y k, Z.abs k < 2 ^ 40 -> X_check (X_inp e x y k) = true -> unit_check (X_inp e x y k) = true -> @coarse_input arc 1 (X_inp e x y k).
Proof.
  intros e x y k K H C. destruct (X_ticking e x y k K H) as [M _]. split; [exact M|]. split.
  - apply andb_prop in C. destruct C as [C1 C2]. apply within_le in C1; [|lia|lia]. apply within_le in C2; [|lia|lia].
    assert (B : F2R (Float radix2 1 0) = 1%R) by (unfold F2R; cbn; lra). rewrite B in C1, C2. split; assumption.
  - destruct (X_time e x y k K) as [F E]. exists (64 * k). unfold arc_arith in *. rewrite E, mult_IZR. field.
Qed.
Lemma zigzag_ok : forall n b k, 0 <= k -> k + 8 * Z.of_nat n < 2 ^ 40 ->
  Forall (fun i : Input => i_event i = EMove) (zigzag n b k) /\ Forall (@coarse_input arc 1) (zigzag n b k) /\ Forall (orientation_acceptable arc) (zigzag n b k) /\
  List.length (zigzag n b k) = n.
Proof.
  induction n as [|n IH]; intros b k K L; [repeat constructor|]. cbn [zigzag]. destruct (IH (negb b) (k + 8)) as (H1 & H2 & H3 & H4); [lia|lia|].
  repeat split.
  - constructor; [reflexivity|exact H1].
  - constructor; [|exact H2]. unfold zig. destruct b; (apply zig_coarse; [lia|compute_true|compute_true]).
  - constructor; [|exact H3]. right. split; compute_true.
  - cbn [List.length]. rewrite H4. reflexivity.
Qed.
Lemma zigzag_paced : forall n b k i, 0 <= k -> k + 8 * Z.of_nat n < 2 ^ 40 ->
  (B2R (i_time i : float64) = IZR (k - 8) / 1024)%R -> input_eqb i (zig b k) = false -> @paced_f arc Y_params 2 i (zigzag n b k).
Proof.
  induction n as [|n IH]; intros b k i K L T NE; [exact I|]. cbn [zigzag paced_f].
  assert (TZ : (B2R (i_time (zig b k) : float64) = IZR k / 1024)%R) by (apply X_time; lia).
  assert (ER : B2R (sp_rate (p_sampling Y_params) : float64) = 180%R) by (apply literal_R; vm_compute; reflexivity).
  assert (TK : (IZR k = IZR (k - 8) + 8)%R) by (rewrite minus_IZR; lra).
  split; [exact NE|]. split; [|split].
  - unfold arc_arith in *. rewrite T, TZ. lra.
  - unfold within_steps. unfold arc_arith in *. rewrite T, TZ, ER, TK. lra.
  - apply IH; [lia|lia| |].
    + replace (k + 8 - 8)%Z with k by lia. exact TZ.
    + unfold input_eqb. assert (V : veqb (i_pos (zig b k)) (i_pos (zig (negb b) (k + 8))) = false) by (destruct b; vm_compute; reflexivity).
      rewrite V. reflexivity.
Qed.
Example C51_float_any_example : forall n, (Z.of_nat n <= 1000000000) -> let ms := zigzag n true 1032 in
  acosf_sane arc /\ validate_params Y_params = OkStatus /\ @damped_params arc Y_params /\ (bpow radix2 (-60) <= 1 <= bpow radix2 30)%R /\
  i_event X_down = EDown /\ Forall (fun i : Input => i_event i = EMove) ms /\ List.length ms = n /\
  Forall (@coarse_input arc 1) (X_down :: ms) /\ Forall (orientation_acceptable arc) (X_down :: ms) /\
  @paced_f arc Y_params 2 X_down ms /\ (2 <= sp_max_outputs (p_sampling Y_params)) /\
  (Z.of_nat (List.length (drawing Y_params (X_down :: ms))) <= INT_MAX).
Proof.
  intros n N ms. destruct (zigzag_ok n true 1032) as (H1 & H2 & H3 & H4); [lia|lia|]. fold ms in H1, H2, H3, H4.
  split; [exact arc_sane|]. split; [vm_compute; reflexivity|]. split; [exact Y_damped|].
  split; [split; [apply (bpow_le radix2 (-60) 0); lia|apply (bpow_le radix2 0 30); lia]|].
  split; [reflexivity|]. split; [exact H1|]. split; [exact H4|].
  split; [constructor; [apply zig_coarse; [lia|compute_true|compute_true]|exact H2]|].
  split; [constructor; [right; split; compute_true|exact H3]|].
  split; [apply zigzag_paced; [lia|lia|apply X_time; lia|compute_true]|].
  split; [vm_compute; discriminate|]. unfold drawing. cbn [List.length map]. rewrite map_length, H4. unfold INT_MAX. lia.
Qed.
(** With 4 Moves: 2 results for each, after 1 for the Down. *)
Example C51_float_any_figures : match answers 5 [] (drawing Y_params (X_down :: zigzag 4 true 1032)) with
  | Ret o => map (fun r => match r with RResults OkStatus l => List.length l | _ => O end) o
  | _ => []
  end = [0; 1; 2; 2; 2; 2]%nat.
Proof. vm_compute. reflexivity. Qed.
