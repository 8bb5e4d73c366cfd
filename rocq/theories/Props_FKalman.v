(** * Kalman predictions in binary32 and binary64: every field of a predicted
      result is finite (C49). *)
From Coq Require Import ZArith Bool List Sorted Reals Lra Lia Psatz.
From Flocq Require Import Core.Core IEEE754.BinarySingleNaN Relative Plus_error.
From Verif Require Export Props_Finite Props_Predict Noise.
Import ListNotations.
Open Scope R_scope.

(** ** Bounds by powers of two *)
Notation pow := (bpow radix2).
Lemma pow_1 : forall k, pow (k + 1) = 2 * pow k.
Proof. intros k. rewrite bpow_plus. change (pow 1) with 2. ring. Qed.
Lemma pow_small32 : forall k x, (-149 <= k <= 127)%Z -> Rabs x <= pow k -> small32 x.
Proof. intros k x K H. eapply small_fmt_bound; [reflexivity|apply fmt_bpow; [reflexivity|]|apply bpow_lt|exact H]; lia. Qed.
Lemma pow_round32 : forall k x, (-149 <= k)%Z -> Rabs x <= pow k -> Rabs (r32 x) <= pow k.
Proof. intros k x K H. apply rnd_abs_le; [reflexivity|apply fmt_bpow; [reflexivity|lia]|exact H]. Qed.

Lemma plus_pow : forall a b m (x y : float32), (-149 <= m <= 127)%Z -> (a < m)%Z -> (b < m)%Z -> fin_le (pow a) x -> fin_le (pow b) y ->
  fin_le (pow m) (Bplus mode_NE x y).
Proof.
  intros a b m x y M HA HB [FX LX] [FY LY].
  assert (L : Rabs (B2R x + B2R y) <= pow m).
  { eapply Rle_trans; [apply Rabs_triang|]. replace m with ((m - 1) + 1)%Z by lia. rewrite pow_1.
    assert (pow a <= pow (m - 1)) by (apply bpow_le; lia). assert (pow b <= pow (m - 1)) by (apply bpow_le; lia). lra. }
  destruct (plus_fin 24 128 _ _ x y FX FY (pow_small32 m _ M L)) as [F E]. split; [exact F|]. rewrite E. apply pow_round32; [lia|exact L].
Qed.
Lemma minus_pow : forall a b m (x y : float32), (-149 <= m <= 127)%Z -> (a < m)%Z -> (b < m)%Z -> fin_le (pow a) x -> fin_le (pow b) y ->
  fin_le (pow m) (Bminus mode_NE x y).
Proof.
  intros a b m x y M HA HB [FX LX] [FY LY].
  assert (L : Rabs (B2R x - B2R y) <= pow m).
  { eapply Rle_trans; [apply Rabs_triang|]. rewrite Rabs_Ropp. replace m with ((m - 1) + 1)%Z by lia. rewrite pow_1.
    assert (pow a <= pow (m - 1)) by (apply bpow_le; lia). assert (pow b <= pow (m - 1)) by (apply bpow_le; lia). lra. }
  destruct (minus_fin 24 128 _ _ x y FX FY (pow_small32 m _ M L)) as [F E]. split; [exact F|]. rewrite E. apply pow_round32; [lia|exact L].
Qed.
Lemma mult_pow : forall a b m (x y : float32), (-149 <= m <= 127)%Z -> (a + b <= m)%Z -> fin_le (pow a) x -> fin_le (pow b) y ->
  fin_le (pow m) (Bmult mode_NE x y).
Proof.
  intros a b m x y M H [FX LX] [FY LY].
  assert (L : Rabs (B2R x * B2R y) <= pow m).
  { rewrite Rabs_mult. apply Rle_trans with (pow a * pow b); [apply Rmult_le_compat; try assumption; apply Rabs_pos|].
    rewrite <- bpow_plus. apply bpow_le. exact H. }
  destruct (mult_fin 24 128 _ _ x y FX FY (pow_small32 m _ M L)) as [F E]. split; [exact F|]. rewrite E. apply pow_round32; [lia|exact L].
Qed.
Lemma div_pow : forall a b m (x y : float32), (-149 <= m <= 127)%Z -> (a - b <= m)%Z -> fin_le (pow a) x -> pow b <= Rabs (B2R y) ->
  fin_le (pow m) (Bdiv mode_NE x y).
Proof.
  intros a b m x y M H [FX LX] LY. pose proof (bpow_gt_0 radix2 b) as PB.
  assert (NY : B2R y <> 0) by (intros Z; rewrite Z, Rabs_R0 in LY; lra).
  assert (L : Rabs (B2R x / B2R y) <= pow m).
  { unfold Rdiv. rewrite Rabs_mult, Rabs_inv. apply Rle_trans with (pow a * / pow b).
    - apply Rmult_le_compat; [apply Rabs_pos|left; apply Rinv_0_lt_compat; lra|exact LX|apply Rinv_le_contravar; assumption].
    - rewrite <- bpow_opp, <- bpow_plus. apply bpow_le. lia. }
  destruct (div_fin 24 128 _ _ x y FX NY (pow_small32 m _ M L)) as [F E]. split; [exact F|]. rewrite E. apply pow_round32; [lia|exact L].
Qed.
(** A number between two powers of two. *)
Definition between (a b : Z) (x : float32) : Prop := is_finite x = true /\ pow a <= B2R x <= pow b.
Lemma between_le : forall a b x, between a b x -> fin_le (pow b) x.
Proof. intros a b x (F & L & U). pose proof (bpow_gt_0 radix2 a). split; [exact F|]. rewrite Rabs_pos_eq; lra. Qed.
Lemma between_low : forall a b x, between a b x -> pow a <= Rabs (B2R x).
Proof. intros a b x (F & L & U). pose proof (bpow_gt_0 radix2 a). rewrite Rabs_pos_eq; lra. Qed.
Lemma mult_between : forall a b c d x y, (-149 <= a + c)%Z -> (b + d <= 127)%Z -> between a b x -> between c d y -> between (a + c) (b + d) (Bmult mode_NE x y).
Proof.
  intros a b c d x y H1 H2 (FX & LX & UX) (FY & LY & UY).
  pose proof (bpow_gt_0 radix2 a) as PA. pose proof (bpow_gt_0 radix2 c) as PC.
  assert (L : pow (a + c) <= B2R x * B2R y) by (rewrite bpow_plus; apply Rmult_le_compat; lra).
  assert (U : B2R x * B2R y <= pow (b + d)) by (rewrite bpow_plus; apply Rmult_le_compat; lra).
  pose proof (bpow_gt_0 radix2 (a + c)) as PAC.
  assert (LE : (a + c <= b + d)%Z) by (apply (le_bpow radix2); lra).
  destruct (mult_fin 24 128 _ _ x y FX FY) as [F E]; [apply (pow_small32 (b + d)); [lia|]; rewrite Rabs_pos_eq; lra|].
  split; [exact F|]. rewrite E. split; [apply rnd_ge_fmt|apply rnd_le_fmt]; try reflexivity; try assumption; apply fmt_bpow; try reflexivity; lia.
Qed.

(** ** What is asked of the predictor's parameters and of the clock *)
(** The noise levels have a certificate (see [Filter.v]; [Noise.v] has one for
    those of kalman_predictor_test.cc), the other parameters are moderate. *)
Definition moderate_kalman {acosf : float32 -> float32} (kp : KalmanParams (A := ieee acosf)) : Prop :=
  (exists cert, filter_certified acosf (kp_process kp) (kp_measure kp) cert = true) /\
  (kp_max_times kp <= 1048576)%Z /\ (cp_samples (kp_conf kp) <= INT_MAX)%Z /\
  Rabs (B2R (kp_acc_weight kp : float32)) <= 1 /\ Rabs (B2R (kp_jerk_weight kp : float32)) <= 1 /\ B2R (kp_interval kp : float64) <= 1.
(** The timestamps the predictor keeps are on average 2^-11 s apart or more. *)
Definition spread_out (ts : list float64) : Prop :=
  IZR (Z.of_nat (List.length ts)) / 2048 <= B2R (last ts (B754_zero false)) - B2R (hd (B754_zero false) ts).

Section FKalman.
Variable acosf : float32 -> float32.
Let A := ieee acosf.
Local Existing Instance A.
Notation vec_le := (vec_le acosf).

Lemma vadd_pow : forall a b m v w, (-149 <= m <= 127)%Z -> (a < m)%Z -> (b < m)%Z -> vec_le (pow a) v -> vec_le (pow b) w -> vec_le (pow m) (vadd v w).
Proof. intros a b m v w M H1 H2 [V1 V2] [W1 W2]. split; [exact (plus_pow _ _ _ _ _ M H1 H2 V1 W1)|exact (plus_pow _ _ _ _ _ M H1 H2 V2 W2)]. Qed.
Lemma vsub_pow : forall a b m v w, (-149 <= m <= 127)%Z -> (a < m)%Z -> (b < m)%Z -> vec_le (pow a) v -> vec_le (pow b) w -> vec_le (pow m) (vsub v w).
Proof. intros a b m v w M H1 H2 [V1 V2] [W1 W2]. split; [exact (minus_pow _ _ _ _ _ M H1 H2 V1 W1)|exact (minus_pow _ _ _ _ _ M H1 H2 V2 W2)]. Qed.
Lemma vscale_pow : forall a b m (k : float32) v, (-149 <= m <= 127)%Z -> (a + b <= m)%Z -> fin_le (pow a) k -> vec_le (pow b) v -> vec_le (pow m) (vscale k v).
Proof. intros a b m k v M H K [V1 V2]. split; [exact (mult_pow _ _ _ _ _ M H K V1)|exact (mult_pow _ _ _ _ _ M H K V2)]. Qed.
Lemma vscale_assign_pow : forall a b m (k : float32) v, (-149 <= m <= 127)%Z -> (a + b <= m)%Z -> vec_le (pow a) v -> fin_le (pow b) k -> vec_le (pow m) (vscale_assign v k).
Proof. intros a b m k v M H [V1 V2] K. split; [exact (mult_pow _ _ _ _ _ M H V1 K)|exact (mult_pow _ _ _ _ _ M H V2 K)]. Qed.
Lemma vdiv_pow : forall a b m (k : float32) v, (-149 <= m <= 127)%Z -> (a - b <= m)%Z -> vec_le (pow a) v -> pow b <= Rabs (B2R k) -> vec_le (pow m) (vdiv v k).
Proof. intros a b m k v M H [V1 V2] K. split; [exact (div_pow _ _ _ _ _ M H V1 K)|exact (div_pow _ _ _ _ _ M H V2 K)]. Qed.

(** Small integers. *)
Lemma int_le : forall z k, (0 <= k)%Z -> (Z.abs z < 2 ^ 24)%Z -> (Z.abs z <= 2 ^ k)%Z -> fin_le (pow k) (fofZ z).
Proof.
  intros z k K Z1 Z2. destruct (ofZ_32 z Z1) as [F E]. split; [exact F|]. unfold A. cbn [fofZ ieee]. rewrite E, <- abs_IZR.
  rewrite <- (IZR_Zpower radix2 k K). apply IZR_le. exact Z2.
Qed.
Lemma int_low : forall z k, (0 <= k)%Z -> (Z.abs z < 2 ^ 24)%Z -> (2 ^ k <= Z.abs z)%Z -> pow k <= Rabs (B2R (fofZ z : float32)).
Proof.
  intros z k K Z1 Z2. destruct (ofZ_32 z Z1) as [F E]. unfold A. cbn [fofZ ieee]. rewrite E, <- abs_IZR.
  rewrite <- (IZR_Zpower radix2 k K). apply IZR_le. exact Z2.
Qed.

(** ** The estimate *)
Definition est_le (e : KEst) : Prop :=
  vec_le (pow 55) (ke_pos e) /\ vec_le (pow 66) (ke_vel e) /\ vec_le (pow 77) (ke_acc e) /\ vec_le (pow 88) (ke_jerk e).
(** The mean spacing of the kept times, as the code computes it. *)
Lemma spacing_between : forall (a b : float64) n, is_finite a = true -> is_finite b = true -> Rabs (B2R a) <= 2147483648 -> Rabs (B2R b) <= 2147483648 ->
  (1 <= n <= 1048576)%Z -> IZR n / 2048 <= B2R b - B2R a -> between (-11) 32 (fdiv (d2f (dsub b a)) (fofZ n)).
Proof.
  intros a b n FA FB LA LB N SP. unfold A. cbn [fdiv d2f dsub fofZ ieee].
  destruct (ofZ_32 n ltac:(lia)) as [FN EN]. set (fn := binary_normalize _ _ _ _ _ n 0 false) in *.
  apply Rabs_le_inv in LA, LB. assert (N1 : 1 <= IZR n <= 1048576) by (split; apply IZR_le; lia).
  assert (E11 : pow (-11) = / 2048) by reflexivity. assert (E32 : pow 32 = 4294967296) by reflexivity.
  assert (EN2 : IZR n / 2048 = IZR n * pow (-11)) by (rewrite E11; reflexivity).
  assert (G1 : fmt 53 1024 (IZR n * pow (-11))) by (apply fmt_FLT; lia).
  assert (G2 : fmt 24 128 (IZR n * pow (-11))) by (apply fmt_FLT; lia).
  assert (B1 : IZR n * pow (-11) <= B2R b - B2R a <= pow 32) by (rewrite <- EN2, E32; lra).
  destruct (minus_fin 53 1024 _ _ b a FB FA) as [M1 M2].
  { apply small_le64. rewrite Rabs_pos_eq by lra. apply Rle_trans with 4294967296; [lra|apply IZR_le; lia]. }
  assert (B2 : IZR n * pow (-11) <= B2R (Bminus mode_NE b a) <= pow 32).
  { rewrite M2. split; [apply rnd_ge_fmt|apply rnd_le_fmt]; try reflexivity; try exact G1; try apply B1. apply fmt_bpow; [reflexivity|lia]. }
  set (df := Bminus mode_NE b a) in *. destruct (d2f_fin df M1) as [D1 D2].
  { apply (pow_small32 32); [lia|]. rewrite Rabs_pos_eq; [apply B2|]. rewrite E11 in B2. lra. }
  assert (B3 : IZR n * pow (-11) <= B2R (b64_to_b32 df) <= pow 32).
  { rewrite D2. split; [apply rnd_ge_fmt|apply rnd_le_fmt]; try reflexivity; try exact G2; try apply B2. apply fmt_bpow; [reflexivity|lia]. }
  set (fd := b64_to_b32 df) in *. set (x := B2R fd) in *.
  assert (Q : pow (-11) <= x / IZR n <= pow 32).
  { assert (IN : 0 < / IZR n <= 1) by (split; [apply Rinv_0_lt_compat; lra|rewrite <- Rinv_1; apply Rinv_le_contravar; lra]). split.
    - apply Rle_trans with (IZR n * pow (-11) / IZR n); [right; field; lra|]. apply Rmult_le_compat_r; lra.
    - apply Rle_trans with (x * 1); [|lra]. apply Rmult_le_compat_l; [rewrite E11 in B3; lra|lra]. }
  assert (Q0 : 0 <= x / IZR n) by (rewrite E11 in Q; lra).
  destruct (div_fin 24 128 _ _ fd fn D1) as [V1 V2]; [rewrite EN; lra| |].
  { apply (pow_small32 32); [lia|]. rewrite EN. fold x. rewrite Rabs_pos_eq; [apply Q|exact Q0]. }
  rewrite EN in V2. fold x in V2. split; [exact V1|]. rewrite V2. split; [apply rnd_ge_fmt|apply rnd_le_fmt]; try reflexivity; try apply Q; apply fmt_bpow; try reflexivity; lia.
Qed.
Lemma state_le : forall x : float64, is_finite x = true -> Rabs (B2R x) <= P55 -> fin_le (pow 55) (b64_to_b32 x).
Proof.
  intros x F L. assert (L2 : Rabs (B2R x) <= pow 55) by exact L. destruct (d2f_fin x F) as [D1 D2]; [apply (pow_small32 55); [lia|exact L2]|].
  split; [exact D1|]. rewrite D2. apply pow_round32; [lia|exact L2].
Qed.
Lemma estimate_le : forall (k : KPredictor) e, kpred_estimate k = Some e ->
  vec_le64 acosf P55 (kf_state (k_x k)) -> vec_le64 acosf P55 (kf_state (k_y k)) ->
  Forall (fun t : float64 => is_finite t = true /\ Rabs (B2R t) <= 2147483648) (k_times k) ->
  (Z.of_nat (List.length (k_times k)) <= 1048576)%Z ->
  IZR (Z.of_nat (List.length (k_times k))) / 2048 <= B2R (last (k_times k) d0 : float64) - B2R (hd d0 (k_times k) : float64) ->
  fin_le 1 (kp_acc_weight (k_params k)) -> fin_le 1 (kp_jerk_weight (k_params k)) -> est_le e.
Proof.
  intros k e H SX SY FT LN SP W1 W2. unfold kpred_estimate in H. destruct (kpred_stable k); [|discriminate H].
  destruct (k_times k) as [|front rest] eqn:T; [discriminate H|]. apply some_inj in H. subst e.
  rewrite (last_default (front :: rest) d0 front) in SP by discriminate. cbn [hd] in SP.
  assert (IL : In (last (front :: rest) front) (front :: rest)).
  { destruct (exists_last (l := front :: rest) ltac:(discriminate)) as (l & z & E). rewrite E, last_last. apply in_or_app. right. left. reflexivity. }
  rewrite Forall_forall in FT. destruct (FT front ltac:(left; reflexivity)) as [F1 B1]. destruct (FT _ IL) as [F2 B2].
  set (bk := last (front :: rest) front) in *.
  assert (N1 : (1 <= Z.of_nat (List.length (front :: rest)) <= 1048576)%Z) by (split; [cbn [List.length]; lia|exact LN]).
  pose proof (spacing_between front bk _ F1 F2 B1 B2 N1 SP) as D.
  match goal with |- est_le (mkKEst _ (vdiv _ ?d) _ _) => set (dt := d) end. change (between (-11) 32 dt) in D. clearbody dt.
  assert (D2 : between (-22) 64 (fmul dt dt)) by exact (mult_between (-11) 32 (-11) 32 dt dt ltac:(lia) ltac:(lia) D D).
  assert (D3 : between (-33) 96 (fmul (fmul dt dt) dt)) by exact (mult_between (-22) 64 (-11) 32 _ dt ltac:(lia) ltac:(lia) D2 D).
  destruct SX as (X0 & X1 & X2 & X3). destruct SY as (Y0 & Y1 & Y2 & Y3).
  assert (V : forall a b : float64, is_finite a = true /\ Rabs (B2R a) <= P55 -> is_finite b = true /\ Rabs (B2R b) <= P55 -> vec_le (pow 55) (mkVec2 (d2f a) (d2f b))).
  { intros a b [Fa La] [Fb Lb]. split; apply state_le; assumption. }
  pose proof (V _ _ X0 Y0) as P0. pose proof (V _ _ X1 Y1) as P1. pose proof (V _ _ X2 Y2) as P2. pose proof (V _ _ X3 Y3) as P3.
  split; [exact P0|]. cbn [ke_vel ke_acc ke_jerk].
  split; [exact (vdiv_pow 55 (-11) 66 _ _ ltac:(lia) ltac:(lia) P1 (between_low _ _ _ D))|].
  split; [exact (vscale_assign_pow 77 0 77 _ _ ltac:(lia) ltac:(lia) (vdiv_pow 55 (-22) 77 _ _ ltac:(lia) ltac:(lia) P2 (between_low _ _ _ D2)) W1)|].
  exact (vscale_assign_pow 88 0 88 _ _ ltac:(lia) ltac:(lia) (vdiv_pow 55 (-33) 88 _ _ ltac:(lia) ltac:(lia) P3 (between_low _ _ _ D3)) W2).
Qed.

(** ** The catch-up curve *)
Lemma of_int64 : forall z, (Z.abs z < 2 ^ 53)%Z -> is_finite (dofZ z : float64) = true /\ B2R (dofZ z : float64) = IZR z.
Proof. exact ofZ_64. Qed.
Lemma period_between : forall (rate : float64) q, is_finite rate = true -> (0 <= q <= 14)%Z -> pow q <= B2R rate <= pow (q + 1) ->
  let h := ddiv (dofZ 1) rate in is_finite (h : float64) = true /\ pow (- (q + 1)) <= B2R (h : float64) <= pow (- q).
Proof.
  intros rate q F Q B. cbv zeta. destruct (of_int64 1 eq_refl) as [F1 E1]. unfold A in *. cbn [ddiv ieee]. set (one := dofZ 1) in *.
  pose proof (bpow_gt_0 radix2 q) as P0. assert (NZ : B2R rate <> 0) by lra.
  assert (R : pow (- (q + 1)) <= B2R one / B2R rate <= pow (- q)).
  { rewrite E1. unfold Rdiv. rewrite Rmult_1_l, !bpow_opp. split; apply Rinv_le_contravar; lra. }
  destruct (div_fin 53 1024 _ _ one rate F1 NZ) as [F2 E2].
  { eapply small_fmt_bound; [reflexivity|apply (fmt_bpow 53 1024 (- q)); [reflexivity|lia]|apply bpow_lt; lia|].
    rewrite Rabs_pos_eq; [apply R|]. eapply Rle_trans; [apply (bpow_ge_0 radix2 (- (q + 1)))|apply R]. }
  split; [exact F2|]. rewrite E2. split; [apply rnd_ge_fmt|apply rnd_le_fmt]; try reflexivity; try apply R; apply fmt_bpow; try reflexivity; lia.
Qed.
(** Rounding down to binary32. *)
Lemma d2f_between : forall (x : float64) a b, (-149 <= a)%Z -> (b <= 127)%Z -> is_finite x = true -> pow a <= B2R x <= pow b -> between a b (b64_to_b32 x).
Proof.
  intros x a b HA HB F [L U]. pose proof (bpow_gt_0 radix2 a). assert ((a <= b)%Z) by (apply (le_bpow radix2); lra).
  destruct (d2f_fin x F) as [D1 D2]; [apply (pow_small32 b); [lia|]; rewrite Rabs_pos_eq; lra|].
  split; [exact D1|]. rewrite D2. split; [apply rnd_ge_fmt|apply rnd_le_fmt]; try reflexivity; try assumption; apply fmt_bpow; try reflexivity; lia.
Qed.
Lemma duration_between : forall (h : float64) n, is_finite h = true -> pow (-15) <= B2R h <= pow 0 -> (1 <= n <= 1048576)%Z ->
  let d := dmul (dofZ n) h in is_finite (d : float64) = true /\ pow (-15) <= B2R (d : float64) <= pow 20.
Proof.
  intros h n F B N. cbv zeta. destruct (of_int64 n ltac:(lia)) as [F1 E1]. unfold A in *. cbn [dmul ieee]. set (fn := dofZ n) in *.
  pose proof (bpow_gt_0 radix2 (-15)) as P0. assert (N1 : 1 <= IZR n <= pow 20) by (change (pow 20) with 1048576; split; apply IZR_le; lia).
  assert (R : pow (-15) <= B2R fn * B2R h <= pow 20).
  { rewrite E1. split; [rewrite <- (Rmult_1_l (pow (-15))); apply Rmult_le_compat; lra|].
    rewrite <- (Rmult_1_r (pow 20)). change (pow 0) with 1 in B. apply Rmult_le_compat; lra. }
  destruct (mult_fin 53 1024 _ _ fn h F1 F) as [F2 E2].
  { eapply small_fmt_bound; [reflexivity|apply (fmt_bpow 53 1024 20); [reflexivity|lia]|apply bpow_lt; lia|]. rewrite Rabs_pos_eq; lra. }
  split; [exact F2|]. rewrite E2. split; [apply rnd_ge_fmt|apply rnd_le_fmt]; try reflexivity; try apply R; apply fmt_bpow; try reflexivity; lia.
Qed.
Lemma scale_of : forall x a b, between a b x -> exists g, (a + 1 <= g <= b + 1)%Z /\ between (g - 1) g x.
Proof.
  intros x a b (F & L & U). pose proof (bpow_gt_0 radix2 a) as P. exists (mag radix2 (B2R x)).
  destruct (mag radix2 (B2R x)) as [e HE]. cbn [mag_val]. specialize (HE ltac:(lra)). rewrite Rabs_pos_eq in HE by lra.
  assert (a < e)%Z by (apply (lt_bpow radix2); lra). assert (e - 1 <= b)%Z by (apply (le_bpow radix2); lra).
  split; [lia|]. split; [exact F|lra].
Qed.
(** i / n for 1 <= i <= n. *)
Lemma fraction_le : forall i n, (1 <= i <= n)%Z -> (n <= 1048576)%Z -> is_finite (fdiv (fofZ i) (fofZ n) : float32) = true /\ 0 <= B2R (fdiv (fofZ i) (fofZ n) : float32) <= pow 0.
Proof.
  intros i n I N. unfold A. cbn [fdiv fofZ ieee]. destruct (ofZ_32 i ltac:(lia)) as [F1 E1]. destruct (ofZ_32 n ltac:(lia)) as [F2 E2].
  set (fi := binary_normalize _ _ _ _ _ i 0 false) in *. set (fn := binary_normalize _ _ _ _ _ n 0 false) in *.
  assert (P1 : 1 <= IZR i <= IZR n) by (split; apply IZR_le; lia).
  assert (R : 0 <= B2R fi / B2R fn <= pow 0).
  { rewrite E1, E2. change (pow 0) with 1. assert (0 < / IZR n) by (apply Rinv_0_lt_compat; lra). split; [apply Rmult_le_pos; lra|].
    apply Rle_trans with (IZR n / IZR n); [apply Rmult_le_compat_r; lra|right; field; lra]. }
  destruct (div_fin 24 128 _ _ fi fn F1 ltac:(lra)) as [V1 V2]; [apply (pow_small32 0); [lia|]; rewrite Rabs_pos_eq; apply R|].
  split; [exact V1|]. rewrite V2. split; [apply rnd_ge0; [reflexivity|apply R]|]. apply rnd_le_fmt; [reflexivity|apply fmt_bpow; [reflexivity|lia]|apply R].
Qed.
Lemma connector_calm : forall (tip : TipState) e (d : float64) n i, vec_le (pow 76) (t_pos tip) -> vec_le (pow 76) (t_vel tip) -> est_le e ->
  is_finite (t_time tip : float64) = true -> Rabs (B2R (t_time tip : float64)) <= 2147483648 ->
  is_finite d = true -> pow (-15) <= B2R d <= pow 20 -> (1 <= i <= n)%Z -> (n <= 1048576)%Z ->
  calm_tip acosf (connector_tip tip e d n i) /\ is_finite (t_time (connector_tip tip e d n i) : float64) = true /\
  Rabs (B2R (t_time (connector_tip tip e d n i) : float64)) <= 2148532224.
Proof.
  intros tip e d n i P0 V0 (P1 & V1 & _ & _) FT BT FD BD I N. unfold connector_tip. cbv zeta.
  destruct (scale_of _ _ _ (d2f_between d (-15) 20 ltac:(lia) ltac:(lia) FD BD)) as (g & G & BG).
  destruct (fraction_le i n I N) as [TF TB]. match goal with |- context [connector_a _ _ _ _ ?x] => change (between (g - 1) g x) in BG; set (fd := x) in * end. set (t := fdiv (fofZ i) (fofZ n)) in *. clearbody fd.
  assert (T1 : fin_le (pow 0) t) by (split; [exact TF|rewrite Rabs_pos_eq; apply TB]).
  assert (T2 : fin_le (pow 0) (fmul t t)) by exact (mult_pow 0 0 0 t t ltac:(lia) ltac:(lia) T1 T1).
  assert (T3 : fin_le (pow 0) (fmul (fmul t t) t)) by exact (mult_pow 0 0 0 (fmul t t) t ltac:(lia) ltac:(lia) T2 T1).
  pose proof (between_le _ _ _ BG) as UG. pose proof (between_low _ _ _ BG) as LG.
  assert (BG2 : between (2 * g - 2) (2 * g) (fmul fd fd)).
  { pose proof (mult_between (g - 1) g (g - 1) g fd fd ltac:(lia) ltac:(lia) BG BG) as K. replace (g - 1 + (g - 1))%Z with (2 * g - 2)%Z in K by lia. replace (g + g)%Z with (2 * g)%Z in K by lia. exact K. }
  pose proof (between_low _ _ _ BG2) as LG2.
  set (m := Z.max 0 g). assert (M : (0 <= m <= 21)%Z /\ (g <= m)%Z /\ (m - g <= 14)%Z) by lia. clearbody m.
  assert (F2 : fin_le (pow 1) f2) by (apply int_le; lia).
  assert (F3 : fin_le (pow 2) (fofZ 3)) by (apply int_le; lia).
  assert (F3' : fin_le (pow 2) (fofZ (-3))) by (apply int_le; lia).
  assert (F6 : fin_le (pow 3) (fofZ 6)) by (apply int_le; lia).
  apply (vec_le_pow acosf 55 76) in P1; [|lia]. apply (vec_le_pow acosf 66 76) in V1; [|lia].
  assert (HA : vec_le (pow (79 + m)) (connector_a (t_pos tip) (t_vel tip) (ke_pos e) (ke_vel e) fd)).
  { unfold connector_a. apply (vadd_pow 78 (77 + m)); [lia|lia|lia| |].
    - apply (vsub_pow 77 77); [lia|lia|lia| |]; apply (vscale_pow 1 76); try lia; assumption.
    - apply (vscale_pow g 77); [lia|lia|exact UG|]. apply (vadd_pow 76 76); try lia; assumption. }
  assert (HB : vec_le (pow (80 + m)) (connector_b (t_pos tip) (t_vel tip) (ke_pos e) (ke_vel e) fd)).
  { unfold connector_b. apply (vsub_pow 79 (78 + m)); [lia|lia|lia| |].
    - apply (vadd_pow 78 78); [lia|lia|lia| |]; apply (vscale_pow 2 76); try lia; assumption.
    - apply (vscale_pow g 78); [lia|lia|exact UG|]. apply (vadd_pow 77 76); [lia|lia|lia| |assumption]. apply (vscale_pow 1 76); try lia; assumption. }
  set (a := connector_a _ _ _ _ _) in *. set (b := connector_b _ _ _ _ _) in *. clearbody a b.
  assert (HC : vec_le (pow (76 + m)) (vscale fd (t_vel tip))) by (apply (vscale_pow g 76); try lia; assumption).
  set (c := vscale fd (t_vel tip)) in *. clearbody c. unfold calm_tip. cbn [t_pos t_vel t_acc t_time].
  assert (TM : is_finite (dadd (t_time tip) (dmul d (f2d t)) : float64) = true /\ Rabs (B2R (dadd (t_time tip) (dmul d (f2d t)) : float64)) <= 2148532224).
  { destruct (f2d_fin t TF) as [G1 G2]. unfold A in *. cbn [dadd dmul f2d ieee]. set (td := b32_to_b64 t) in *. clearbody t. rewrite <- G2 in TB. change (pow 0) with 1 in TB.
    pose proof (bpow_gt_0 radix2 (-15)) as P15. change (pow 20) with 1048576 in BD.
    assert (R : 0 <= B2R d * B2R td <= 1048576) by (split; [apply Rmult_le_pos; lra|rewrite <- (Rmult_1_r 1048576); apply Rmult_le_compat; lra]).
    destruct (mult_fin 53 1024 _ _ d td FD G1) as [M1 M2]; [apply small_le64; rewrite Rabs_pos_eq by lra; apply Rle_trans with 1048576; [lra|apply IZR_le; lia]|].
    assert (RM : 0 <= B2R (Bmult mode_NE d td) <= 1048576).
    { rewrite M2. split; [apply rnd_ge0; [reflexivity|lra]|]. apply rnd_le_fmt; [reflexivity|apply (fmt_IZR 53 1024 1048576); [lia|lia]|lra]. }
    assert (RS : Rabs (B2R (t_time tip : float64) + B2R (Bmult mode_NE d td)) <= 2148532224).
    { eapply Rle_trans; [apply Rabs_triang|]. rewrite (Rabs_pos_eq (B2R (Bmult mode_NE d td))) by lra.
      replace 2148532224 with (2147483648 + 1048576) by lra. apply Rplus_le_compat; [exact BT|lra]. }
    destruct (plus_fin 53 1024 _ _ (t_time tip : float64) (Bmult mode_NE d td) FT M1) as [S1 S2].
    { apply small_le64. apply Rle_trans with 2148532224; [exact RS|apply IZR_le; lia]. }
    split; [exact S1|]. rewrite S2. apply rnd_abs_le; [reflexivity|apply (fmt_IZR 53 1024 2148532224); [lia|lia]|exact RS]. }
  split; [|exact TM]. split; [|split; [|split]].
  - apply (vec_le_pow acosf (83 + m)); [lia|]. apply (vadd_pow (82 + m) 76); [lia|lia|lia| |exact P0].
    apply (vadd_pow (81 + m) (76 + m)); [lia|lia|lia| |apply (vscale_pow 0 (76 + m)); try lia; assumption].
    apply (vadd_pow (79 + m) (80 + m)); [lia|lia|lia| |]; [apply (vscale_pow 0 (79 + m))|apply (vscale_pow 0 (80 + m))]; try lia; assumption.
  - apply (vec_le_pow acosf (84 + m - g)); [lia|]. apply (vdiv_pow (83 + m) (g - 1)); [lia|lia| |exact LG].
    apply (vadd_pow (82 + m) (76 + m)); [lia|lia|lia| |exact HC].
    apply (vadd_pow (81 + m) (81 + m)); [lia|lia|lia| |].
    + apply (vscale_pow 0 (81 + m)); [lia|lia|assumption|]. apply (vscale_pow 2 (79 + m)); try lia; assumption.
    + apply (vscale_pow 0 (81 + m)); [lia|lia|assumption|]. apply (vscale_pow 1 (80 + m)); try lia; assumption.
  - apply (vec_le_pow acosf (85 + m - 2 * g)); [lia|]. apply (vdiv_pow (83 + m) (2 * g - 2)); [lia|lia| |exact LG2].
    apply (vadd_pow (82 + m) (81 + m)); [lia|lia|lia| |apply (vscale_pow 1 (80 + m)); try lia; assumption].
    apply (vscale_pow 0 (82 + m)); [lia|lia|assumption|]. apply (vscale_pow 3 (79 + m)); try lia; assumption.
  - destruct TM as [TM1 TM2]. split; [exact TM1|]. eapply Rle_trans; [exact TM2|]. change (pow 32) with 4294967296. lra.
Qed.

(** ** The extension *)
(** Sums of many terms: [c] units of 2^e. *)
Lemma plus_units : forall c e (x y : float32), (0 <= c < 1048576)%Z -> (-149 <= e <= 100)%Z -> fin_le (IZR c * pow e) x -> fin_le (pow e) y ->
  fin_le (IZR (c + 1) * pow e) (Bplus mode_NE x y).
Proof.
  intros c e x y C E [FX LX] [FY LY]. assert (FM : fmt 24 128 (IZR (c + 1) * pow e)) by (apply fmt_mult_pow; lia).
  assert (L : Rabs (B2R x + B2R y) <= IZR (c + 1) * pow e) by (eapply Rle_trans; [apply Rabs_triang|]; rewrite plus_IZR; lra).
  destruct (plus_fin 24 128 _ _ x y FX FY) as [P1 P2].
  { eapply small_fmt_bound; [reflexivity|exact FM| |exact L]. apply Rle_lt_trans with (pow 20 * pow e); [|rewrite <- bpow_plus; apply bpow_lt; lia].
    apply Rmult_le_compat_r; [apply bpow_ge_0|]. change (pow 20) with 1048576. apply IZR_le. lia. }
  split; [exact P1|]. rewrite P2. apply rnd_abs_le; [reflexivity|exact FM|exact L].
Qed.
Lemma vadd_units : forall c e v w, (0 <= c < 1048576)%Z -> (-149 <= e <= 100)%Z -> vec_le (IZR c * pow e) v -> vec_le (pow e) w -> vec_le (IZR (c + 1) * pow e) (vadd v w).
Proof. intros c e v w C E [V1 V2] [W1 W2]. split; [exact (plus_units c e _ _ C E V1 W1)|exact (plus_units c e _ _ C E V2 W2)]. Qed.
Lemma units_pow : forall c e j v, (0 <= j)%Z -> (c <= 2 ^ j)%Z -> vec_le (IZR c * pow e) v -> vec_le (pow (j + e)) v.
Proof.
  intros c e j v J C V. apply (vec_le_mono acosf _ _ _ V). rewrite bpow_plus. apply Rmult_le_compat_r; [apply bpow_ge_0|].
  rewrite <- (IZR_Zpower radix2 j J). apply IZR_le. exact C.
Qed.
(** After [k] steps of at most 2^-q seconds. *)
Definition extended (q k : Z) (e : KEst) : Prop :=
  vec_le (IZR (2 ^ q + 3 * k) * pow (93 - q)) (ke_pos e) /\ vec_le (IZR (2 ^ q + 2 * k) * pow (90 - q)) (ke_vel e) /\
  vec_le (IZR (2 ^ q + k) * pow (88 - q)) (ke_acc e) /\ vec_le (pow 88) (ke_jerk e).
Lemma two_q : forall q, (0 <= q <= 14)%Z -> (1 <= 2 ^ q <= 16384)%Z.
Proof. intros q Q. split; [apply (Z.pow_le_mono_r 2 0 q); lia|apply (Z.pow_le_mono_r 2 q 14); lia]. Qed.
Lemma extended_start : forall q e, (0 <= q <= 14)%Z -> est_le e -> extended q 0 e.
Proof.
  intros q e Q (P & V & C & J).
  assert (K : forall j, IZR (2 ^ q + 0) * pow (j - q) = pow j).
  { intros j. rewrite Z.add_0_r. change 2%Z with (radix_val radix2). rewrite (IZR_Zpower radix2 q) by lia. rewrite <- bpow_plus. f_equal. lia. }
  unfold extended. rewrite !Z.mul_0_r, !K.
  split; [exact (vec_le_pow acosf 55 93 _ ltac:(lia) P)|]. split; [exact (vec_le_pow acosf 66 90 _ ltac:(lia) V)|].
  split; [exact (vec_le_pow acosf 77 88 _ ltac:(lia) C)|exact J].
Qed.
Lemma extended_bounds : forall q k e, (0 <= q <= 14)%Z -> (0 <= k <= 2 ^ (q + 1))%Z -> extended q k e ->
  vec_le (pow 96) (ke_pos e) /\ vec_le (pow 93) (ke_vel e) /\ vec_le (pow 90) (ke_acc e).
Proof.
  intros q k e Q K (P & V & C & _). pose proof (two_q q Q) as T.
  assert (E1 : (2 ^ (q + 1) = 2 * 2 ^ q)%Z) by (rewrite Z.pow_add_r by lia; lia).
  assert (E2 : (2 ^ (q + 2) = 4 * 2 ^ q)%Z) by (rewrite Z.pow_add_r by lia; lia).
  assert (E3 : (2 ^ (q + 3) = 8 * 2 ^ q)%Z) by (rewrite Z.pow_add_r by lia; lia).
  split; [replace 96%Z with ((q + 3) + (93 - q))%Z by lia; refine (units_pow _ _ _ _ _ _ P); lia|].
  split; [replace 93%Z with ((q + 3) + (90 - q))%Z by lia; refine (units_pow _ _ _ _ _ _ V); lia|].
  replace 90%Z with ((q + 2) + (88 - q))%Z by lia; refine (units_pow _ _ _ _ _ _ C); lia.
Qed.
Lemma extended_step : forall q k e (h : float64), (0 <= q <= 14)%Z -> (0 <= k)%Z -> (k + 1 <= 2 ^ (q + 1))%Z -> is_finite h = true -> pow (- (q + 1)) <= B2R h <= pow (- q) ->
  extended q k e -> extended q (k + 1) (evaluate_cubic e h).
Proof.
  intros q k e h Q K0 K1 FH BH X. destruct (extended_bounds q k e Q ltac:(lia) X) as (_ & V & C). destruct X as (XP & XV & XC & XJ).
  pose proof (two_q q Q) as T. assert (E1 : (2 ^ (q + 1) = 2 * 2 ^ q)%Z) by (rewrite Z.pow_add_r by lia; lia).
  pose proof (between_le _ _ _ (d2f_between h (- (q + 1)) (- q) ltac:(lia) ltac:(lia) FH BH)) as D1. unfold evaluate_cubic. cbv zeta.
  match goal with |- extended _ _ (mkKEst (vadd (vadd (vadd _ (vscale ?x _)) _) _) _ _ _) => change (fin_le (pow (- q)) x) in D1; set (dt := x) in * end. clearbody dt.
  assert (D2 : fin_le (pow (- (2 * q))) (fmul dt dt)) by exact (mult_pow (- q) (- q) (- (2 * q)) dt dt ltac:(lia) ltac:(lia) D1 D1).
  assert (D3 : fin_le (pow (- (3 * q))) (fmul (fmul dt dt) dt)) by exact (mult_pow (- (2 * q)) (- q) (- (3 * q)) (fmul dt dt) dt ltac:(lia) ltac:(lia) D2 D1).
  assert (L2 : pow 1 <= Rabs (B2R (f2 : float32))) by (apply int_low; lia).
  assert (L6 : pow 2 <= Rabs (B2R (fofZ 6 : float32))) by (apply int_low; lia).
  unfold extended. cbn [ke_pos ke_vel ke_acc ke_jerk]. split; [|split; [|split; [|exact XJ]]].
  - replace (2 ^ q + 3 * (k + 1))%Z with (2 ^ q + 3 * k + 1 + 1 + 1)%Z by lia.
    apply vadd_units; [lia|lia| |apply (vdiv_pow (88 - 3 * q) 2); [lia|lia| |exact L6]; apply (vscale_pow (- (3 * q)) 88); try lia; assumption].
    apply vadd_units; [lia|lia| |apply (vdiv_pow (90 - 2 * q) 1); [lia|lia| |exact L2]; apply (vscale_pow (- (2 * q)) 90); try lia; assumption].
    apply vadd_units; [lia|lia|exact XP|]. apply (vscale_pow (- q) 93); try lia; assumption.
  - replace (2 ^ q + 2 * (k + 1))%Z with (2 ^ q + 2 * k + 1 + 1)%Z by lia.
    apply vadd_units; [lia|lia| |apply (vdiv_pow (88 - 2 * q) 1); [lia|lia| |exact L2]; apply (vscale_pow (- (2 * q)) 88); try lia; assumption].
    apply vadd_units; [lia|lia|exact XV|]. apply (vscale_pow (- q) 90); try lia; assumption.
  - replace (2 ^ q + (k + 1))%Z with (2 ^ q + k + 1)%Z by lia.
    apply vadd_units; [lia|lia|exact XC|]. apply (vscale_pow (- q) 88); try lia; assumption.
Qed.
Lemma time_step : forall (t h : float64) z, (0 <= z <= 8589934592)%Z -> is_finite t = true -> Rabs (B2R t) <= IZR z -> is_finite h = true -> 0 <= B2R h <= 1 ->
  is_finite (dadd t h : float64) = true /\ Rabs (B2R (dadd t h : float64)) <= IZR (z + 1).
Proof.
  intros t h z Z0 FT BT FH BH. unfold A. cbn [dadd ieee].
  assert (L : Rabs (B2R t + B2R h) <= IZR (z + 1)) by (eapply Rle_trans; [apply Rabs_triang|]; rewrite (Rabs_pos_eq (B2R h)), plus_IZR by lra; lra).
  destruct (plus_fin 53 1024 _ _ t h FT FH) as [S1 S2].
  { apply small_le64. eapply Rle_trans; [exact L|]. apply IZR_le. apply Z.le_trans with (2 ^ 34)%Z; [lia|apply Z.pow_le_mono_r; lia]. }
  split; [exact S1|]. rewrite S2. apply rnd_abs_le; [reflexivity|apply (fmt_IZR 53 1024); lia|exact L].
Qed.
Lemma extension_calm : forall q (h : float64), (0 <= q <= 14)%Z -> is_finite h = true -> pow (- (q + 1)) <= B2R h <= pow (- q) ->
  forall n e (t : float64) k z, (0 <= k)%Z -> (k + Z.of_nat n <= 2 ^ (q + 1))%Z -> (0 <= z)%Z -> (z + Z.of_nat n <= 4294967296)%Z ->
  extended q k e -> is_finite t = true -> Rabs (B2R t) <= IZR z -> Forall (calm_tip acosf) (cubic_prediction e t h n).
Proof.
  intros q h Q FH BH. assert (B0 : 0 <= B2R h <= 1).
  { pose proof (bpow_ge_0 radix2 (- (q + 1))). split; [lra|]. apply Rle_trans with (pow (- q)); [lra|]. change 1 with (pow 0). apply bpow_le. lia. }
  induction n as [|n IH]; intros e t k z K0 K1 Z0 Z1 X FT BT; cbn [cubic_prediction]; [constructor|].
  pose proof (extended_step q k e h Q K0 ltac:(lia) FH BH X) as X1. destruct (time_step t h z ltac:(lia) FT BT FH B0) as [T1 T2].
  destruct (extended_bounds q (k + 1) _ Q ltac:(lia) X1) as (P & V & C). constructor.
  - unfold calm_tip. cbn [t_pos t_vel t_acc t_time].
    split; [exact (vec_le_pow acosf 96 110 _ ltac:(lia) P)|]. split; [exact (vec_le_pow acosf 93 98 _ ltac:(lia) V)|]. split; [exact (vec_le_pow acosf 90 120 _ ltac:(lia) C)|].
    split; [exact T1|]. eapply Rle_trans; [exact T2|]. apply (IZR_le (z + 1) 4294967296). lia.
  - apply (IH _ _ (k + 1)%Z (z + 1)%Z); try lia; assumption.
Qed.

(** ** How far the extension goes *)
Definition fraction (x : float32) : Prop := is_nan x = true \/ unit32 x.
Lemma nan_eq : forall x : float32, is_nan x = true -> x = B754_nan.
Proof. intros []; intros H; try discriminate H; reflexivity. Qed.
Lemma fraction_mult : forall x y, fraction x -> fraction y -> fraction (Bmult mode_NE x y).
Proof.
  intros x y [X|[FX BX]] HY; [apply nan_eq in X; subst x; left; destruct y; reflexivity|].
  destruct HY as [Y|[FY BY]]; [apply nan_eq in Y; subst y; left; destruct x; reflexivity|]. right.
  assert (R : 0 <= B2R x * B2R y <= 1) by (split; [apply Rmult_le_pos; lra|rewrite <- (Rmult_1_r 1); apply Rmult_le_compat; lra]).
  destruct (mult_fin 24 128 _ _ x y FX FY) as [M1 M2]; [apply (pow_small32 0); [lia|]; rewrite Rabs_pos_eq by lra; apply R|].
  split; [exact M1|]. rewrite M2. split; [apply rnd_ge0; [reflexivity|apply R]|]. apply rnd_le_fmt; [reflexivity|apply (fmt_bpow 24 128 0); [reflexivity|lia]|apply R].
Qed.
Lemma fraction_rest : forall x, fraction x -> fraction (fsub f1 x).
Proof.
  intros x [X|[FX BX]]; [apply nan_eq in X; subst x; left; reflexivity|]. right. destruct (f1_fin acosf) as [G1 G2]. unfold A. cbn [fsub ieee]. set (one := f1) in *.
  assert (R : 0 <= B2R one - B2R x <= 1) by (rewrite G2; lra).
  destruct (minus_fin 24 128 _ _ one x G1 FX) as [M1 M2]; [apply (pow_small32 0); [lia|]; rewrite Rabs_pos_eq by lra; apply R|].
  split; [exact M1|]. rewrite M2. split; [apply rnd_ge0; [reflexivity|apply R]|]. apply rnd_le_fmt; [reflexivity|apply (fmt_bpow 24 128 0); [reflexivity|lia]|apply R].
Qed.
Lemma fraction_normalize : forall a b x : float32, fraction (normalize01 a b x).
Proof.
  intros a b x. unfold normalize01. destruct (f1_fin acosf) as [G1 G2]. destruct (f0_fin acosf) as [G3 G4].
  destruct (feqb (Arith := A) a b); [destruct (fltb (Arith := A) a x); right; (split; [assumption|]); unfold A in *; [rewrite G2|rewrite G4]; lra|].
  destruct (is_nan (fdiv (Arith := A) (fsub (Arith := A) x a) (fsub (Arith := A) b a) : float32)) eqn:N; [left; apply (clamp_nan acosf); exact N|right; apply (clamp_unit acosf); exact N].
Qed.
Lemma fraction_min : forall x, nonneg32 x -> fraction (std_fmin f1 x).
Proof.
  intros x X. unfold std_fmin. destruct (f1_fin acosf) as [G1 G2]. destruct (fltb (Arith := A) x f1) eqn:L; [|right; split; [exact G1|unfold A in *; rewrite G2; lra]].
  right. unfold A in *. cbn [fltb ieee] in L. assert (FX : is_finite x = true).
  { destruct x as [s|s| |s m e B]; try reflexivity; [|destruct X]. cbn in X. subst s. exfalso. revert L. destruct f1 as [[]|[]| |[]]; intros L; discriminate L. }
  apply (ltb_R 24 128) in L; [|assumption|assumption]. rewrite G2 in L. split; [exact FX|]. split; [|lra].
  destruct x; try discriminate FX; exact X.
Qed.

Lemma int_nonneg : forall z, (0 <= z <= INT_MAX)%Z -> is_finite (fofZ z : float32) = true /\ 0 <= B2R (fofZ z : float32) /\ ((1 <= z)%Z -> 1 <= B2R (fofZ z : float32)).
Proof.
  intros z Z0. unfold A. cbn [fofZ ieee]. assert (E0 : F2R (Float radix2 z 0) = IZR z) by (unfold F2R; cbn [Fnum Fexp bpow]; ring).
  destruct (normalize_fin 24 128 _ _ z 0 false) as [F E].
  { apply (pow_small32 31); [lia|]. rewrite E0, <- abs_IZR. rewrite <- (IZR_Zpower radix2 31) by lia. apply IZR_le. unfold INT_MAX in Z0. cbn. lia. }
  rewrite E0 in E. split; [exact F|]. rewrite E. split; [apply rnd_ge0; [reflexivity|apply (IZR_le 0); lia]|].
  intros Z1. apply rnd_ge_fmt; [reflexivity|apply (fmt_bpow 24 128 0); [reflexivity|lia]|apply (IZR_le 1); exact Z1].
Qed.
Lemma ratio_nonneg : forall a b, (0 <= a <= INT_MAX)%Z -> (1 <= b <= INT_MAX)%Z -> nonneg32 (fdiv (fofZ a) (fofZ b)).
Proof.
  intros a b HA HB. destruct (int_nonneg a HA) as (F1 & P1 & _). destruct (int_nonneg b ltac:(lia)) as (F2 & _ & P2). specialize (P2 ltac:(lia)).
  unfold A in *. cbn [fdiv ieee]. apply div_nonneg; [apply nonneg_fin; assumption|exact F2|lra].
Qed.
Lemma fraction_interp : forall a c, fraction a -> fraction c -> fraction (interp_f a f1 c).
Proof.
  intros a c [NA|UA] HC; [left; apply (interp_nan_start acosf); exact NA|]. destruct HC as [NC|UC]; [left; apply (interp_nan acosf); exact NC|].
  right. destruct (f1_fin acosf) as [G1 G2]. apply (interp_unit acosf); [exact UA|split; [exact G1|unfold A in *; rewrite G2; lra]|].
  destruct UC as [FC _]. destruct c; try reflexivity; discriminate FC.
Qed.
Lemma confidence_fraction : forall (k : KPredictor) pos e, (0 <= kf_iter (k_x k) <= INT_MAX)%Z -> (1 <= cp_samples (kp_conf (k_params k)) <= INT_MAX)%Z ->
  fraction (cp_baseline (kp_conf (k_params k))) -> fraction (kpred_confidence k pos e).
Proof.
  intros k pos e I S B. unfold kpred_confidence. cbv zeta.
  repeat apply fraction_mult; [apply fraction_min; apply ratio_nonneg; assumption|apply fraction_rest; apply fraction_normalize|apply fraction_normalize|].
  apply fraction_interp; [exact B|apply fraction_rest; apply fraction_normalize].
Qed.
Lemma points_le : forall (k : KPredictor) pos e q n, (0 <= q <= 14)%Z -> fraction (kpred_confidence k pos e) ->
  is_finite (kp_interval (k_params k) : float64) = true -> 0 <= B2R (kp_interval (k_params k) : float64) <= 1 ->
  is_finite (sp_rate (k_sampling k) : float64) = true -> pow q <= B2R (sp_rate (k_sampling k) : float64) <= pow (q + 1) ->
  kpred_number_of_points k pos e = Some n -> (n <= 2 ^ (q + 1))%Z.
Proof.
  intros k pos e q n Q C FI BI FR BR H. unfold kpred_number_of_points in H. cbv zeta in H. set (cf := kpred_confidence k pos e) in *. clearbody cf.
  set (ti := kp_interval (k_params k)) in *. set (rt := sp_rate (k_sampling k)) in *. clearbody ti rt. unfold A in *. cbn [dmul d2f fmul fceil ftoint ieee] in H.
  change float64 in ti, rt. change float32 in cf. pose proof (bpow_gt_0 radix2 q) as P0. pose proof (bpow_gt_0 radix2 (q + 1)) as P1.
  assert (E1 : IZR (2 ^ (q + 1)) = pow (q + 1)) by (rewrite <- (IZR_Zpower radix2 (q + 1)) by lia; reflexivity).
  assert (TQ : (1 <= 2 ^ (q + 1))%Z) by (apply (Z.pow_le_mono_r 2 0 (q + 1)); lia).
  assert (R1 : 0 <= B2R ti * B2R rt <= pow (q + 1)) by (split; [apply Rmult_le_pos; lra|rewrite <- (Rmult_1_l (pow (q + 1))); apply Rmult_le_compat; lra]).
  destruct (mult_fin 53 1024 _ _ ti rt FI FR) as [M1 M2].
  { eapply small_fmt_bound; [reflexivity|apply (fmt_bpow 53 1024 (q + 1)); [reflexivity|lia]|apply bpow_lt; lia|]. rewrite Rabs_pos_eq; apply R1. }
  set (tr := Bmult mode_NE ti rt) in *. assert (R2 : 0 <= B2R tr <= pow (q + 1)).
  { rewrite M2. split; [apply rnd_ge0; [reflexivity|apply R1]|apply rnd_le_fmt; [reflexivity|apply fmt_bpow; [reflexivity|lia]|apply R1]]. }
  destruct (d2f_fin tr M1) as [D1 D2]; [apply (pow_small32 (q + 1)); [lia|]; rewrite Rabs_pos_eq; apply R2|].
  set (tg := b64_to_b32 tr) in *. assert (R3 : 0 <= B2R tg <= pow (q + 1)).
  { rewrite D2. split; [apply rnd_ge0; [reflexivity|apply R2]|apply rnd_le_fmt; [reflexivity|apply fmt_bpow; [reflexivity|lia]|apply R2]]. }
  clearbody tg.
  assert (FIN : forall x : float32, b_to_int x = Some n -> B2R x <= pow (q + 1) -> 0 <= B2R x -> (n <= 2 ^ (q + 1))%Z).
  { intros x HX LX PX. apply to_int_some in HX; [|exact prec_lt_emax_32]. destruct HX as (_ & -> & _). apply le_IZR. rewrite E1.
    eapply Rle_trans; [|exact LX]. rewrite Ztrunc_floor by exact PX. apply Zfloor_lb. }
  destruct C as [NC|[FC BC]].
  - apply nan_eq in NC. subst cf. assert (E : Bnearbyint mode_UP (Bmult mode_NE tg B754_nan) = B754_nan) by (destruct tg; reflexivity).
    rewrite E in H. unfold std_fmax in H. cbn [fisnan ieee] in H. rewrite f0_eq in H. cbn [is_nan] in H.
    apply (FIN _ H); cbn; lra.
  - assert (R4 : 0 <= B2R tg * B2R cf <= pow (q + 1)) by (split; [apply Rmult_le_pos; lra|rewrite <- (Rmult_1_r (pow (q + 1))); apply Rmult_le_compat; lra]).
    destruct (mult_fin 24 128 _ _ tg cf D1 FC) as [V1 V2]; [apply (pow_small32 (q + 1)); [lia|]; rewrite Rabs_pos_eq; apply R4|].
    set (pr := Bmult mode_NE tg cf) in *. assert (R5 : 0 <= B2R pr <= pow (q + 1)).
    { rewrite V2. split; [apply rnd_ge0; [reflexivity|apply R4]|apply rnd_le_fmt; [reflexivity|apply fmt_bpow; [reflexivity|lia]|apply R4]]. }
    destruct (ceil_fin 24 128 _ pr V1) as [C1 C2].
    assert (R6 : 0 <= B2R (Bnearbyint mode_UP pr) <= pow (q + 1)).
    { rewrite C2. rewrite <- E1. split; [apply (IZR_le 0); apply le_IZR; apply Rle_trans with (B2R pr); [apply R5|apply Zceil_ub]|].
      apply IZR_le. apply Zceil_glb. rewrite E1. apply R5. }
    set (c := Bnearbyint mode_UP pr) in *. clearbody c. unfold std_fmax in H. rewrite f0_eq in H. cbn [fisnan fltb ieee is_nan] in H.
    destruct (is_nan c); [apply (FIN _ H); cbn; lra|]. destruct (Bltb (B754_zero false) c); [apply (FIN _ H); apply R6|apply (FIN _ H); cbn; lra].
Qed.

(** ** Predictions *)
Lemma int_bounds : forall z l, validate_gt0_i z l = OkStatus -> (1 <= z)%Z.
Proof. intros z l H. unfold validate_gt0_i in H. destruct (Z.leb_spec z 0); [discriminate H|lia]. Qed.
Lemma valid_kalman_F : forall (p : StrokeModelParams) kp, validate_params p = OkStatus -> p_prediction p = PredKalman kp ->
  (1 <= kp_max_times kp)%Z /\ is_finite (kp_acc_weight kp : float32) = true /\ is_finite (kp_jerk_weight kp : float32) = true /\
  is_finite (kp_interval kp : float64) = true /\ 0 < B2R (kp_interval kp : float64) /\ (1 <= cp_samples (kp_conf kp))%Z /\ fraction (cp_baseline (kp_conf kp)).
Proof.
  intros p kp V P. destruct (validate_params_parts p V) as (_ & _ & _ & _ & VP & _).
  rewrite P in VP. cbn [validate_prediction] in VP. unfold validate_kalman in VP. cbv zeta in VP.
  apply and_then_ok in VP. destruct VP as [_ VP]. apply and_then_ok in VP. destruct VP as [_ VP]. apply and_then_ok in VP. destruct VP as [_ VP].
  apply and_then_ok in VP. destruct VP as [K1 VP]. apply and_then_ok in VP. destruct VP as [_ VP]. apply and_then_ok in VP. destruct VP as [K2 VP].
  apply and_then_ok in VP. destruct VP as [K3 VP]. apply and_then_ok in VP. destruct VP as [K4 VP]. apply and_then_ok in VP. destruct VP as [K5 VP].
  apply and_then_ok in VP. destruct VP as [_ VP]. apply and_then_ok in VP. destruct VP as [_ VP]. apply and_then_ok in VP. destruct VP as [_ VP].
  destruct (fltb (cp_max_speed (kp_conf kp)) (cp_min_speed (kp_conf kp))); [discriminate VP|].
  apply and_then_ok in VP. destruct VP as [_ VP].
  destruct (fltb (cp_baseline (kp_conf kp)) f0) eqn:L2; cbn [orb] in VP; [discriminate VP|].
  destruct (fltb f1 (cp_baseline (kp_conf kp))) eqn:L3; cbn [orb] in VP; [discriminate VP|]. clear VP.
  apply int_bounds in K1, K5. apply (finite_f_F acosf) in K2, K3. apply gt0_d_F in K4. destruct K4 as [K4 K4'].
  split; [exact K1|]. split; [exact K2|]. split; [exact K3|]. split; [exact K4|]. split; [exact K4'|]. split; [exact K5|].
  destruct (f1_fin acosf) as [G1 G2]. destruct (f0_fin acosf) as [G3 G4]. unfold A in *. cbn [fltb ieee] in L2, L3.
  set (b := cp_baseline (kp_conf kp)) in *. clearbody b. change float32 in b. destruct (is_finite b) eqn:FB.
  - right. split; [exact FB|]. apply (ltb_false_R 24 128) in L2; [|assumption|assumption]. apply (ltb_false_R 24 128) in L3; [|assumption|assumption]. rewrite G2 in L3. rewrite G4 in L2. lra.
  - destruct b as [s|s| |s m ee B]; try discriminate FB; [|left; reflexivity]. exfalso. destruct s.
    + rewrite f0_eq in L2. discriminate L2.
    + revert L3. generalize G1. destruct f1 as [s|s| |s m ee B]; intros G L3; try discriminate G; try discriminate L3; destruct s; discriminate L3.
Qed.
Lemma kf_iter_step : forall (pn mn : float64) (f f' : KFilter) (z : float64), kf_update pn mn f z = Ret f' -> (0 <= kf_iter f <= INT_MAX)%Z -> (0 <= kf_iter f' <= INT_MAX)%Z.
Proof.
  intros pn mn f f' z H I. unfold kf_update in H. destruct (Z.leb_spec INT_MAX (kf_iter f)); [discriminate H|].
  destruct (Z.eqb (kf_iter f) 0); apply ret_inj in H; subst f'; cbn [kf_iter kf_correct kf_predict]; lia.
Qed.
Lemma predicting_kalman_F : forall (p : StrokeModelParams) kp l pr, p_prediction p = PredKalman kp -> (0 < kp_max_times kp)%Z -> predicting p l pr ->
  exists k, pr = Some (PKal k) /\ k_params k = kp /\ k_sampling k = p_sampling p /\
    k_times k = most_recent (kp_max_times kp) (map (fun a => i_time (fst a)) l) /\ (0 <= kf_iter (k_x k) <= INT_MAX)%Z.
Proof.
  intros p kp l pr P MT H. induction H as [|l pr i c pr' H (k & -> & K1 & K2 & K4 & K5) U].
  - unfold make_predictor. rewrite P. eexists. split; [reflexivity|]. cbn. repeat (split; [reflexivity|]). unfold INT_MAX. lia.
  - cbn [upd_pred pred_update] in U. bind_inv U. apply ret_inj in U. subst pr'. bind_inv E. apply ret_inj in E. subst x. rename x0 into k'.
    unfold kpred_update in E0. bind_inv E0. bind_inv E0. apply ret_inj in E0. subst k'. eexists. split; [reflexivity|]. cbn [k_params k_sampling k_last k_times k_x k_y].
    split; [exact K1|]. split; [exact K2|]. split.
    + rewrite K1, K4, map_app. cbn [map fst]. rewrite recent_step by exact MT. reflexivity.
    + eapply kf_iter_step; [exact E|exact K5].
Qed.
Lemma rate_scale : forall r : R, 1 <= r <= 16384 -> exists q, (0 <= q <= 14)%Z /\ pow q <= r <= pow (q + 1).
Proof.
  intros r B. exists (mag radix2 r - 1)%Z. destruct (mag radix2 r) as [e HE]. cbn [mag_val]. specialize (HE ltac:(lra)). rewrite Rabs_pos_eq in HE by lra.
  assert (0 < e)%Z by (apply (lt_bpow radix2); change (pow 0) with 1; lra). assert (e - 1 <= 14)%Z by (apply (le_bpow radix2); change (pow 14) with 16384; lra).
  split; [lia|]. replace (e - 1 + 1)%Z with e by lia. lra.
Qed.
Lemma predict_calm : forall (k : KPredictor) (tip : TipState) tips,
  vec_le64 acosf P55 (kf_state (k_x k)) -> vec_le64 acosf P55 (kf_state (k_y k)) ->
  Forall (fun t : float64 => is_finite t = true /\ Rabs (B2R t) <= 2147483648) (k_times k) ->
  (Z.of_nat (List.length (k_times k)) <= 1048576)%Z -> spread_out (k_times k) ->
  fin_le 1 (kp_acc_weight (k_params k)) -> fin_le 1 (kp_jerk_weight (k_params k)) ->
  is_finite (kp_interval (k_params k) : float64) = true -> 0 <= B2R (kp_interval (k_params k) : float64) <= 1 ->
  (0 <= kf_iter (k_x k) <= INT_MAX)%Z -> (1 <= cp_samples (kp_conf (k_params k)) <= INT_MAX)%Z -> fraction (cp_baseline (kp_conf (k_params k))) ->
  is_finite (sp_rate (k_sampling k) : float64) = true -> 1 <= B2R (sp_rate (k_sampling k) : float64) <= 16384 ->
  vec_le (pow 76) (t_pos tip) -> vec_le (pow 76) (t_vel tip) -> is_finite (t_time tip : float64) = true -> Rabs (B2R (t_time tip : float64)) <= 2147483648 ->
  kpred_predict k tip = Ret tips -> (List.length tips <= Z.to_nat 1048576)%nat -> Forall (calm_tip acosf) tips.
Proof.
  intros k tip tips SX SY FT LN SP W1 W2 FI BI IT CS BL FR BR TP TV TF TB H L. unfold kpred_predict in H.
  destruct (kpred_estimate k) as [e|] eqn:EE; [|apply ret_inj in H; subst tips; constructor].
  destruct (k_last k) as [pos|]; [|apply ret_inj in H; subst tips; constructor]. cbv zeta in H.
  pose proof (estimate_le k e EE SX SY FT LN SP W1 W2) as ES. destruct (rate_scale _ BR) as (q & Q & BQ).
  destruct (period_between _ q FR Q BQ) as [FH BH]. set (h := ddiv (dofZ 1) (sp_rate (k_sampling k))) in *.
  bind_inv H. rename x into conn. unfold cubic_connector, to_int in E. destruct (connector_points tip e (k_params k) h) as [n|]; [|discriminate E].
  cbv zeta in E. apply ret_inj in E. unfold to_int in H. destruct (kpred_number_of_points k pos e) as [n2|] eqn:EN; [|discriminate H]. apply ret_inj in H.
  pose proof (points_le k pos e q n2 Q (confidence_fraction k pos e IT CS BL) FI BI FR BQ EN) as N2.
  assert (LC : List.length conn = Z.to_nat n) by (subst conn; rewrite map_length, seq_length; reflexivity).
  assert (LT : (List.length conn + Z.to_nat n2 <= Z.to_nat 1048576)%nat).
  { replace (List.length conn + Z.to_nat n2)%nat with (List.length tips); [exact L|]. subst tips. rewrite app_length. f_equal.
    generalize (match back conn with Some t => t_time t | None => t_time tip end). clear. generalize (Z.to_nat n2) as m. intros m. revert e.
    induction m as [|m IH]; intros e t; [reflexivity|]. cbn [cubic_prediction List.length]. f_equal. apply IH. }
  assert (HC : Forall (fun t => calm_tip acosf t /\ is_finite (t_time t : float64) = true /\ Rabs (B2R (t_time t : float64)) <= 2148532224) conn).
  { subst conn. apply Forall_forall. intros t IN. apply in_map_iff in IN. destruct IN as (i & <- & IN). apply in_seq in IN.
    destruct (duration_between h n FH) as [FD BD]; [split; [eapply Rle_trans; [|apply BH]; apply bpow_le; lia|eapply Rle_trans; [apply BH|]; apply bpow_le; lia]|lia|].
    apply connector_calm; try assumption; lia. }
  subst tips. apply Forall_app. split; [eapply Forall_impl; [|exact HC]; intros t K; apply K|].
  assert (TS : is_finite (match back conn with Some t => t_time t | None => t_time tip end : float64) = true /\
    Rabs (B2R (match back conn with Some t => t_time t | None => t_time tip end : float64)) <= 2148532224).
  { destruct (back conn) as [t|] eqn:B; [|split; [exact TF|eapply Rle_trans; [exact TB|lra]]].
    apply back_in in B. rewrite Forall_forall in HC. apply HC. exact B. }
  assert (P14 : (2 ^ (q + 1) <= 32768)%Z) by (apply (Z.pow_le_mono_r 2 (q + 1) 15); lia). assert (P0 : (1 <= 2 ^ (q + 1))%Z) by (apply (Z.pow_le_mono_r 2 0 (q + 1)); lia).
  apply (extension_calm q h Q FH BH (Z.to_nat n2) e _ 0%Z 2148532224%Z); [lia|lia|lia|lia| |apply TS|apply TS].
  apply extended_start; assumption.
Qed.

Lemma predict_kalman_finite : forall fuel hist s p kp es seen rs out,
  after_seen fuel hist s es seen -> ps_params s = Some p -> p_prediction p = PredKalman kp -> @steady_params acosf p -> @moderate_kalman acosf kp ->
  @moderate_inputs acosf p (map fst es) seen -> spread_out (most_recent (kp_max_times kp) (map (fun e => i_time (fst e)) es)) ->
  (count acosf es <= Z.to_nat 1048576)%nat -> (List.length out <= Z.to_nat 1048576)%nat ->
  answers fuel hist [CPredict rs] = Ret [RResults OkStatus out] -> Forall (finite_result acosf) out.
Proof.
  intros fuel hist s p kp es seen rs out AS P PS O (CE & MT & CS & W1 & W2 & BI) MI SP CT LO AN.
  assert (AF : after fuel hist s) by (destruct AS as (ma & rsa & Ra & Pa & _); exists ma, rsa; auto).
  destruct (finv_state acosf fuel hist s es seen AS) as (m & rs0 & R0 & (T1 & T2 & _) & G & C & J).
  destruct (remembered_state _ _ _ _ _ AS) as (m1 & rs1 & R1 & _ & _ & _ & RM). unfold A in *. rewrite R0 in R1. injection R1 as <- <-.
  destruct (accepted_predict _ _ _ _ _ _ AF AN) as (m1 & r0 & m' & R & _ & _ & _ & U). rewrite R0 in R. injection R as <- <-.
  destruct (prd_ok fuel m m' out U) as (p' & pr & last0 & tips & lm & MQ & MPR & ML & PC & MS & _). rewrite T1 in P.
  assert (p' = p) by congruence. subst p'. pose proof (g_valid _ G p P) as V. destruct (J p last0 MQ ML) as [(l & JL) [_ JQ]].
  destruct (RM p last0 MQ ML) as (cs & ws & [H1 H2 H3 H4 H5 H6]). pose proof O as (SD & _).
  assert (ON : prediction_on p = true) by (unfold prediction_on; rewrite PS; reflexivity). specialize (H6 ON).
  destruct JQ as [(J1 & J1' & J1'') J2 J3 [J4 J4'] J6 [J7 J7'] J8 J9 _]; [split; auto|].
  destruct (C p MQ ltac:(left; congruence)) as (C1 & C2 & C3 & C4).
  cbn [core_of co_w co_s co_last co_l co_pred co_tip] in *. rewrite ON, MPR in *.
  destruct (valid_kalman_F p kp V PS) as (K1 & K2 & K3 & K4 & K5 & K6 & K7).
  destruct (predicting_kalman_F p kp _ _ PS ltac:(lia) H6) as (k & EK & Q1 & Q2 & Q3 & Q4). apply some_inj in EK. subst pr. cbn [pred_construct pred_le] in PC, J6.
  assert (TM : map (fun a : Input * Vec2 => i_time (fst a)) (combine (map fst es) ws) = map (fun e => i_time (fst e)) es).
  { clear - H3. revert ws H3. induction es as [|e es IH]; intros [|w ws] H; try discriminate H; [reflexivity|]. cbn. f_equal. apply IH. injection H as H. exact H. }
  unfold A in *. rewrite TM in Q3. pose proof bufsize as [BZ BZ'].
  pose proof (model_stylus_length _ _ _ _ _ _ _ _ MS) as LNS.
  assert (LT : (List.length tips <= Z.to_nat 1048576)%nat) by (unfold A in *; rewrite <- LNS; exact LO).
  assert (TI : Forall (calm_tip acosf) tips).
  { destruct (lively_bounds acosf _ (count acosf es) _ (unit_range acosf _ _ SD) ltac:(unfold A in *; lia) J1) as (L1 & L2 & _).
    destruct CE as (cert & CE). subst kp. destruct (J6 cert CE) as [SX SY].
    apply (predict_calm k (pm_state (m_pos m)) tips); try assumption.
    - exact (filter_small_le acosf _ _ cert _ CE SX).
    - exact (filter_small_le acosf _ _ cert _ CE SY).
    - unfold A in *. rewrite Q3. destruct MI as (MM & _). apply Forall_forall. intros t IN.
      assert (IN2 : In t (map (fun e => i_time (fst e)) es)).
      { unfold most_recent in IN. rewrite <- (firstn_skipn (List.length (map (fun e : entry => i_time (fst e)) es) - Z.to_nat (kp_max_times (k_params k))) _). apply in_or_app. right. exact IN. }
      rewrite <- TM in IN2. apply in_map_iff in IN2. destruct IN2 as ([i w] & <- & IN2). apply (subseq_in _ _ _ H4) in IN2. apply in_combine_l in IN2.
      rewrite Forall_forall in MM. destruct (MM i IN2) as (_ & Y & _). exact Y.
    - unfold A in *. rewrite Q3. unfold most_recent. rewrite skipn_length, map_length. lia.
    - unfold A in *. rewrite Q3. exact SP.
    - split; assumption.
    - split; assumption.
    - lra.
    - lia.
    - unfold A in *. rewrite Q2. destruct (validate_params_parts p V) as (_ & _ & VS & _). unfold validate_sampling in VS. apply and_then_ok in VS. destruct VS as [VR _]. apply gt0_d_F in VR. apply VR.
    - rewrite Q2. exact (sd_rate _ _ SD).
    - unfold A in *. rewrite J1''. apply J7'. }
  apply (stylus_calm acosf fuel _ _ _ _ _ _ J2 TI J4) in MS; [exact (proj1 MS)|unfold A in *; lia|unfold A in *; rewrite C4; apply good_ok; assumption].
Qed.
End FKalman.

(** ** C49, C27 and C28 for Kalman predictions *)
Theorem C49_float_finite_kalman_prediction : forall acosf (A := ieee acosf) fuel hist s (p : StrokeModelParams (A := ieee acosf)) (kp : KalmanParams (A := ieee acosf)) es (seen : list (Input (A := ieee acosf))) rs out,
  after_seen fuel hist s es seen -> ps_params s = Some p -> p_prediction p = PredKalman kp -> steady_params p -> moderate_kalman kp -> moderate_inputs p (map fst es) seen ->
  spread_out (most_recent (kp_max_times kp) (map (fun e => i_time (fst e)) es)) ->
  (List.length (List.concat (map snd es)) <= Z.to_nat 1048576)%nat -> (List.length out <= Z.to_nat 1048576)%nat ->
  answers fuel hist [CPredict rs] = Ret [RResults OkStatus out] -> Forall all_finite out.
Proof.
  intros acosf A fuel hist s p kp es seen rs out AS PP PS O MK MI SP CT LO AN. subst A.
  eapply Forall_impl; [|exact (predict_kalman_finite acosf fuel hist s p kp es seen rs out AS PP PS O MK MI SP CT LO AN)]. intros r. apply finite_all.
Qed.
(** Without certificates: the noise of kalman_predictor_test.cc:42-43, the weights of
    params.h:259-260 or any others up to 1. *)
Theorem C49_float_finite_kalman_default : forall acosf (A := ieee acosf) fuel hist s (p : StrokeModelParams (A := ieee acosf)) (kp : KalmanParams (A := ieee acosf)) es (seen : list (Input (A := ieee acosf))) rs out,
  after_seen fuel hist s es seen -> ps_params s = Some p -> p_prediction p = PredKalman kp -> steady_params p ->
  kp_process kp = decimal acosf 26458 100000000 -> kp_measure kp = decimal acosf 26458 1000000 ->
  (kp_max_times kp <= 1048576)%Z -> (cp_samples (kp_conf kp) <= INT_MAX)%Z ->
  Rabs (B2R (kp_acc_weight kp : float32)) <= 1 -> Rabs (B2R (kp_jerk_weight kp : float32)) <= 1 -> B2R (kp_interval kp : float64) <= 1 ->
  moderate_inputs p (map fst es) seen ->
  spread_out (most_recent (kp_max_times kp) (map (fun e => i_time (fst e)) es)) ->
  (List.length (List.concat (map snd es)) <= Z.to_nat 1048576)%nat -> (List.length out <= Z.to_nat 1048576)%nat ->
  answers fuel hist [CPredict rs] = Ret [RResults OkStatus out] -> Forall all_finite out.
Proof.
  intros acosf A fuel hist s p kp es seen rs out AS PP PS O N1 N2 K1 K2 K3 K4 K5 MI SP CT LO AN. subst A.
  refine (C49_float_finite_kalman_prediction acosf fuel hist s p kp es seen rs out AS PP PS O _ MI SP CT LO AN).
  split; [exists cert_default; rewrite N1, N2; exact (default_certified acosf)|]. split; [exact K1|]. split; [exact K2|]. split; [exact K3|]. split; [exact K4|exact K5].
Qed.
Theorem C27_ordinary_pressure_in_range_kalman : forall acosf (A := ieee acosf) fuel h0 (d : Input (A := ieee acosf)) rs0 out0 mid s (p : StrokeModelParams (A := ieee acosf)) (kp : KalmanParams (A := ieee acosf)) es (seen : list (Input (A := ieee acosf))) rs out,
  i_event d = EDown -> unit_pressure acosf d ->
  answers fuel h0 [CUpdate d rs0] = Ret [RResults OkStatus out0] ->
  Forall (call_ok (unit_pressure acosf)) mid ->
  after_seen fuel (h0 ++ CUpdate d rs0 :: mid) s es seen -> ps_params s = Some p -> p_prediction p = PredKalman kp -> steady_params p -> moderate_kalman kp ->
  moderate_inputs p (map fst es) seen -> spread_out (most_recent (kp_max_times kp) (map (fun e => i_time (fst e)) es)) ->
  (List.length (List.concat (map snd es)) <= Z.to_nat 1048576)%nat -> (List.length out <= Z.to_nat 1048576)%nat ->
  answers fuel (h0 ++ CUpdate d rs0 :: mid) [CPredict rs] = Ret [RResults OkStatus out] ->
  Forall pressure_in_unit out.
Proof.
  intros acosf A fuel h0 d rs0 out0 mid s p kp es seen rs out ED UD AD FM AS PP PE O MK MI SP CT LO AN. subst A.
  pose proof (C49_float_finite_kalman_prediction acosf fuel _ s p kp es seen rs out AS PP PE O MK MI SP CT LO AN) as FF.
  pose proof (C27_pressure_in_range_predict_partial acosf fuel h0 d rs0 out0 mid rs out ED UD AD FM AN) as PF.
  apply Forall_forall. intros r IN. destruct (proj1 (Forall_forall _ _) PF r IN) as [K|K]; [exact K|].
  destruct (proj1 (Forall_forall _ _) FF r IN) as (_ & _ & _ & _ & K2 & _). cbn [fisnan ieee] in K.
  destruct (r_pressure r); try discriminate K2; discriminate K.
Qed.
Theorem C28_ordinary_orientation_in_range_kalman : forall acosf (A := ieee acosf) fuel hist s (p : StrokeModelParams (A := ieee acosf)) (kp : KalmanParams (A := ieee acosf)) es (seen : list (Input (A := ieee acosf))) rs out,
  after_seen fuel hist s es seen -> ps_params s = Some p -> p_prediction p = PredKalman kp -> steady_params p -> moderate_kalman kp ->
  moderate_inputs p (map fst es) seen -> spread_out (most_recent (kp_max_times kp) (map (fun e => i_time (fst e)) es)) ->
  (List.length (List.concat (map snd es)) <= Z.to_nat 1048576)%nat -> (List.length out <= Z.to_nat 1048576)%nat ->
  answers fuel hist [CPredict rs] = Ret [RResults OkStatus out] ->
  Forall (fun r : @Result A => orientation_in_range acosf (r_orient r)) out.
Proof.
  intros acosf A fuel hist s p kp es seen rs out AS PP PE O MK MI SP CT LO AN. subst A.
  pose proof (C49_float_finite_kalman_prediction acosf fuel _ s p kp es seen rs out AS PP PE O MK MI SP CT LO AN) as FF.
  pose proof (C28_orientation_in_range_predict_partial acosf fuel hist rs out AN) as PF.
  apply Forall_forall. intros r IN. destruct (proj1 (Forall_forall _ _) PF r IN) as [K|K]; [exact K|].
  destruct (proj1 (Forall_forall _ _) FF r IN) as (_ & _ & _ & _ & _ & _ & K2). cbn [fisnan ieee] in K.
  destruct (r_orient r); try discriminate K2; discriminate K.
Qed.
