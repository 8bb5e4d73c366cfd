(** * The spring is stable: energy of one step, exactly and in binary32. *)
From Coq Require Import ZArith Bool List Reals Lra Lia Psatz.
From Flocq Require Import Core.Core IEEE754.BinarySingleNaN Relative.
From Verif Require Export Props_FRest.
Import ListNotations.
Open Scope R_scope.

(** ** One step in exact arithmetic
    [y] is the distance to the anchor, [w] the velocity in units in which the
    energy is [y * y + w * w]; the step has length [g] in these units and drag
    leaves the fraction [al] of the velocity. *)
Lemma energy_step : forall y w g al, 0 <= al -> g * g <= 1 - al * al ->
  let w1 := al * w - g * y in (y + g * w1) * (y + g * w1) + w1 * w1 <= y * y + w * w.
Proof.
  intros y w g al A0 H w1.
  assert (ID : (1 - g * g) * (y * y + w * w - ((y + g * w1) * (y + g * w1) + w1 * w1)) =
               (1 - g * g - al * al) * (w * w) + g * g * ((y + g * w1) * (y + g * w1))) by (unfold w1; ring).
  assert (P : 0 <= (1 - g * g - al * al) * (w * w) + g * g * ((y + g * w1) * (y + g * w1))).
  { apply Rplus_le_le_0_compat; apply Rmult_le_pos; solve [lra|apply Rle_0_sqr]. }
  destruct (Rlt_le_dec (g * g) 1) as [L|L].
  - rewrite <- ID in P. apply Rmult_le_reg_l with (1 - g * g); [lra|]. nra.
  - assert (al = 0) by nra. subst al. unfold w1. nra.
Qed.

(** ** Rounding errors *)
Definition u24 : R := / 16777216.
Definition eta : R := bpow radix2 (-150).
Lemma r32_error : forall x, Rabs (r32 x - x) <= u24 * Rabs x + eta.
Proof.
  intros x. destruct (error_N_FLT radix2 (-149) 24 eq_refl (fun z => negb (Z.even z)) x) as (e & t & H1 & H2 & _ & H3).
  assert (H4 : r32 x = x * (1 + e) + t) by exact H3. rewrite H4. replace (x * (1 + e) + t - x) with (x * e + t) by ring.
  eapply Rle_trans; [apply Rabs_triang|]. rewrite Rabs_mult.
  assert (H0 : Rabs e <= / 2 * / 8388608) by exact H1.
  assert (H5 : / 2 * bpow radix2 (-149) = eta) by (unfold eta; change (-150)%Z with (-1 + -149)%Z; rewrite bpow_plus; reflexivity).
  rewrite H5 in H2. unfold u24. pose proof (Rabs_pos x).
  assert (Rabs x * Rabs e <= Rabs x * (/ 2 * / 8388608)) by (apply Rmult_le_compat_l; assumption). lra.
Qed.
Lemma eta_pos : 0 < eta.
Proof. apply bpow_gt_0. Qed.
Lemma eta_small : eta <= / 1267650600228229401496703205376.
Proof. change (/ 1267650600228229401496703205376) with (bpow radix2 (-100)). apply bpow_le. lia. Qed.

(** [x] is finite and within [e] of [r]. *)
Definition appr (x : float32) (r e : R) : Prop := is_finite x = true /\ Rabs (B2R x - r) <= e.
Definition big : R := IZR (2 ^ 126).
Lemma small_big : forall x, Rabs x <= big -> small32 x.
Proof. intros x H. apply small_le32. eapply Rle_trans; [exact H|]. apply IZR_le. lia. Qed.

Lemma appr_round : forall z r e m, Rabs (z - r) <= e -> Rabs r <= m -> Rabs (r32 z - r) <= (1 + u24) * e + u24 * m + eta.
Proof.
  intros z r e m H1 H2. pose proof (r32_error z) as H3.
  replace (r32 z - r) with ((r32 z - z) + (z - r)) by ring. eapply Rle_trans; [apply Rabs_triang|].
  assert (H4 : Rabs z <= Rabs (z - r) + Rabs r) by (replace z with ((z - r) + r) at 1 by ring; apply Rabs_triang).
  assert (0 < u24) by (unfold u24; lra). nra.
Qed.
Lemma appr_exact : forall x : float32, is_finite x = true -> appr x (B2R x) 0.
Proof. intros x F. split; [exact F|]. rewrite Rminus_eq_0, Rabs_R0. lra. Qed.
Lemma appr_le : forall x r e e', appr x r e -> e <= e' -> appr x r e'.
Proof. intros x r e e' [F H] L. split; [exact F|lra]. Qed.
Lemma appr_abs : forall x r e m, appr x r e -> Rabs r <= m -> Rabs (B2R x) <= m + e.
Proof. intros x r e m [_ H] L. replace (B2R x) with ((B2R x - r) + r) by ring. eapply Rle_trans; [apply Rabs_triang|]. lra. Qed.

Lemma appr_plus : forall x y r s e f m, appr x r e -> appr y s f -> Rabs (r + s) <= m -> m + e + f <= big ->
  appr (Bplus mode_NE x y) (r + s) ((1 + u24) * (e + f) + u24 * m + eta).
Proof.
  intros x y r s e f m [F1 H1] [F2 H2] M B.
  assert (H : Rabs (B2R x + B2R y - (r + s)) <= e + f).
  { replace (B2R x + B2R y - (r + s)) with ((B2R x - r) + (B2R y - s)) by ring. eapply Rle_trans; [apply Rabs_triang|]. lra. }
  destruct (plus_fin 24 128 _ _ x y F1 F2) as [F3 E3].
  { apply small_big. replace (B2R x + B2R y) with ((B2R x + B2R y - (r + s)) + (r + s)) by ring. eapply Rle_trans; [apply Rabs_triang|]. lra. }
  split; [exact F3|]. rewrite E3. apply appr_round; assumption.
Qed.
Lemma appr_minus : forall x y r s e f m, appr x r e -> appr y s f -> Rabs (r - s) <= m -> m + e + f <= big ->
  appr (Bminus mode_NE x y) (r - s) ((1 + u24) * (e + f) + u24 * m + eta).
Proof.
  intros x y r s e f m [F1 H1] [F2 H2] M B.
  assert (H : Rabs (B2R x - B2R y - (r - s)) <= e + f).
  { replace (B2R x - B2R y - (r - s)) with ((B2R x - r) + (s - B2R y)) by ring. eapply Rle_trans; [apply Rabs_triang|].
    rewrite (Rabs_minus_sym s). lra. }
  destruct (minus_fin 24 128 _ _ x y F1 F2) as [F3 E3].
  { apply small_big. replace (B2R x - B2R y) with ((B2R x - B2R y - (r - s)) + (r - s)) by ring. eapply Rle_trans; [apply Rabs_triang|]. lra. }
  split; [exact F3|]. rewrite E3. apply appr_round; assumption.
Qed.
(** Multiplication by and division by a number that is exact. *)
Lemma appr_scale : forall (k x : float32) r e m, is_finite k = true -> 0 <= B2R k -> appr x r e -> Rabs r <= m -> B2R k * (m + e) <= big ->
  appr (Bmult mode_NE k x) (B2R k * r) ((1 + u24) * (B2R k * e) + u24 * (B2R k * m) + eta).
Proof.
  intros k x r e m FK K0 [F1 H1] M B.
  assert (H : Rabs (B2R k * B2R x - B2R k * r) <= B2R k * e).
  { replace (B2R k * B2R x - B2R k * r) with (B2R k * (B2R x - r)) by ring. rewrite Rabs_mult, (Rabs_pos_eq (B2R k)) by exact K0. nra. }
  assert (H2 : Rabs (B2R k * r) <= B2R k * m) by (rewrite Rabs_mult, (Rabs_pos_eq (B2R k)) by exact K0; nra).
  destruct (mult_fin 24 128 _ _ k x FK F1) as [F3 E3].
  { apply small_big. replace (B2R k * B2R x) with ((B2R k * B2R x - B2R k * r) + B2R k * r) by ring. eapply Rle_trans; [apply Rabs_triang|]. lra. }
  split; [exact F3|]. rewrite E3. apply appr_round; assumption.
Qed.
Lemma appr_div : forall (x k : float32) r e m, 0 < B2R k -> appr x r e -> Rabs r <= m -> (m + e) / B2R k <= big ->
  appr (Bdiv mode_NE x k) (r / B2R k) ((1 + u24) * (e / B2R k) + u24 * (m / B2R k) + eta).
Proof.
  intros x k r e m K0 [F1 H1] M B. unfold Rdiv in *. set (i := / B2R k) in *. assert (I0 : 0 < i) by (apply Rinv_0_lt_compat; exact K0).
  assert (H : Rabs (B2R x * i - r * i) <= e * i).
  { replace (B2R x * i - r * i) with ((B2R x - r) * i) by ring. rewrite Rabs_mult, (Rabs_pos_eq i) by lra. nra. }
  assert (H2 : Rabs (r * i) <= m * i) by (rewrite Rabs_mult, (Rabs_pos_eq i) by lra; nra).
  destruct (div_fin 24 128 _ _ x k F1 ltac:(lra)) as [F3 E3].
  { apply small_big. unfold Rdiv. fold i. replace (B2R x * i) with ((B2R x * i - r * i) + r * i) by ring. eapply Rle_trans; [apply Rabs_triang|]. lra. }
  split; [exact F3|]. rewrite E3. unfold Rdiv. fold i. apply appr_round; assumption.
Qed.

(** ** One step in binary32, one coordinate *)
Lemma leg_le : forall z w r, 0 <= r -> z * z + w * w <= r * r -> Rabs z <= r /\ Rabs w <= r.
Proof. intros z w r R0 H. split; apply Rabs_le; nra. Qed.
Lemma near_circle : forall p q p0 q0 e f r, Rabs (p - p0) <= e -> Rabs (q - q0) <= f -> 0 <= r -> p0 * p0 + q0 * q0 <= r * r ->
  p * p + q * q <= (r + e + f) * (r + e + f).
Proof.
  intros p q p0 q0 e f r H1 H2 R0 H. pose proof (Rabs_pos (p - p0)). pose proof (Rabs_pos (q - q0)).
  assert (P0 : Rabs p0 <= r) by (apply Rabs_le; nra). assert (Q0 : Rabs q0 <= r) by (apply Rabs_le; nra).
  assert (P : Rabs p <= Rabs p0 + e) by (replace p with (p0 + (p - p0)) at 1 by ring; eapply Rle_trans; [apply Rabs_triang|lra]).
  assert (Q : Rabs q <= Rabs q0 + f) by (replace q with (q0 + (q - q0)) at 1 by ring; eapply Rle_trans; [apply Rabs_triang|lra]).
  assert (A1 : forall z, z * z = Rabs z * Rabs z) by (intros z; rewrite <- Rabs_mult; symmetry; apply Rabs_pos_eq; apply Rle_0_sqr).
  rewrite (A1 p), (A1 q). rewrite (A1 p0), (A1 q0) in H. pose proof (Rabs_pos p). pose proof (Rabs_pos q). pose proof (Rabs_pos p0). pose proof (Rabs_pos q0).
  assert (Rabs p * Rabs p <= (Rabs p0 + e) * (Rabs p0 + e)) by nra. assert (Rabs q * Rabs q <= (Rabs q0 + f) * (Rabs q0 + f)) by nra.
  assert (Rabs p0 * e <= r * e) by nra. assert (Rabs q0 * f <= r * f) by nra. assert (0 <= e * f) by nra. lra.
Qed.

(** The parameters of the spring and the length of the step. *)
Record step_ok (s d dl : float32) (sg : R) : Prop := mkStepOk {
  st_fin : is_finite dl = true /\ is_finite d = true;
  st_sg : / 1024 <= sg <= 1024;
  st_s : B2R s = sg * sg;
  st_d : 0 <= B2R d <= 16384;
  st_dl : 0 <= B2R dl <= 4;
  st_drag : B2R dl * B2R d <= 1;
  st_spring : B2R dl <= B2R s * B2R d
}.
(** The energy bound: [x] at distance and velocity [v] within [r] of the anchor. *)
Definition energy (sg : R) (x v : float32) (a : R) (r : R) : Prop :=
  is_finite x = true /\ is_finite v = true /\ (B2R x - a) * (B2R x - a) + (sg * B2R v) * (sg * B2R v) <= r * r.

Lemma energy_bounds : forall sg x v a r, 0 < sg -> 0 <= r -> energy sg x v a r -> Rabs (B2R x - a) <= r /\ sg * Rabs (B2R v) <= r.
Proof.
  intros sg x v a r G R0 (_ & _ & H). apply leg_le in H; [|exact R0]. destruct H as [H K]. split; [exact H|]. rewrite Rabs_mult, (Rabs_pos_eq sg) in K by lra. exact K.
Qed.
Lemma energy_anchor : forall sg x v a b r e, energy sg x v a r -> 0 <= r -> Rabs (a - b) <= e -> energy sg x v b (r + e).
Proof.
  intros sg x v a b r e (F1 & F2 & H) R0 L. split; [exact F1|]. split; [exact F2|].
  pose proof (near_circle (B2R x - b) (sg * B2R v) (B2R x - a) (sg * B2R v) e 0 r) as K.
  rewrite Rplus_0_r in K. apply K; [|rewrite Rminus_eq_0, Rabs_R0; lra|exact R0|exact H].
  replace (B2R x - b - (B2R x - a)) with (a - b) by ring. exact L.
Qed.

Definition acc1 (s d x v a : float32) : float32 := Bminus mode_NE (Bdiv mode_NE (Bminus mode_NE a x) s) (Bmult mode_NE d v).
Definition vel1 (s d dl x v a : float32) : float32 := Bplus mode_NE v (Bmult mode_NE dl (acc1 s d x v a)).
Definition pos1 (s d dl x v a : float32) : float32 := Bplus mode_NE x (Bmult mode_NE dl (vel1 s d dl x v a)).

(** 2^66 bounds the energy radius, 2^32 the anchors. *)
Lemma spring_step : forall s d dl x v a sg r, step_ok s d dl sg -> is_finite a = true -> Rabs (B2R a) <= 4294967296 ->
  1 <= r -> r <= 73786976294838206464 -> energy sg x v (B2R a) r ->
  is_finite (acc1 s d x v a) = true /\ Rabs (B2R (acc1 s d x v a)) <= IZR (2 ^ 93) /\
  energy sg (pos1 s d dl x v a) (vel1 s d dl x v a) (B2R a) (r + / 262144 * r + 256).
Proof.
  intros s d dl x v a sg r [[FL FD] SG ES DD DL DRAG SPR] FA BA R1 R2 EN.
  destruct (energy_bounds sg x v (B2R a) r ltac:(lra) ltac:(lra) EN) as [BY BV]. destruct EN as (FX & FV & EN).
  assert (U : u24 = / 16777216) by reflexivity. pose proof eta_pos as T0. pose proof eta_small as T1.
  assert (ET : 1267650600228229401496703205376 * eta <= 1) by (rewrite <- (Rinv_r 1267650600228229401496703205376) by lra; apply Rmult_le_compat_l; lra).
  set (y := B2R x - B2R a) in *. set (Y := Rabs y) in *. set (V := Rabs (B2R v)) in *.
  assert (Y0 : 0 <= Y) by apply Rabs_pos. assert (V0 : 0 <= V) by apply Rabs_pos.
  set (i := / B2R s). assert (S0 : / 1048576 <= B2R s) by (rewrite ES; nra).
  assert (I1 : B2R s * i = 1) by (apply Rinv_r; lra). assert (I0 : 0 < i) by (apply Rinv_0_lt_compat; lra).
  assert (I2 : i <= 1048576) by (replace 1048576 with (/ / 1048576) by lra; apply Rinv_le_contravar; lra).
  (* the length of the step in units of energy *)
  set (g := B2R dl * (sg * i)). assert (SI : sg * (sg * i) = 1) by (rewrite <- Rmult_assoc, <- ES; exact I1).
  assert (SI0 : 0 < sg * i) by (apply Rmult_lt_0_compat; lra).
  assert (G0 : 0 <= g) by (apply Rmult_le_pos; lra).
  assert (GS : g * sg = B2R dl) by (unfold g; rewrite Rmult_assoc, (Rmult_comm (sg * i)), SI; ring).
  set (al := 1 - B2R dl * B2R d).
  assert (GG : g * g <= 1 - al).
  { replace (g * g) with (B2R dl * (B2R dl * i)) by (unfold g; replace (B2R dl * (sg * i) * (B2R dl * (sg * i))) with (B2R dl * (B2R dl * i) * (sg * (sg * i))) by ring; rewrite SI; ring).
    replace (1 - al) with (B2R dl * B2R d) by (unfold al; ring). apply Rmult_le_compat_l; [lra|].
    apply Rle_trans with (B2R s * B2R d * i); [apply Rmult_le_compat_r; lra|]. replace (B2R s * B2R d * i) with (B2R d * (B2R s * i)) by ring. rewrite I1. lra. }
  assert (AL0 : 0 <= al <= 1) by (unfold al; split; [lra|assert (0 <= B2R dl * B2R d) by (apply Rmult_le_pos; lra); lra]).
  assert (G1 : g <= 1) by nra. assert (AG : g * g <= 1 - al * al) by (clear - AL0 GG; nra).
  (* magnitudes *)
  set (Yi := Y * i). set (Dv := B2R d * V).
  assert (Yi0 : 0 <= Yi) by (apply Rmult_le_pos; lra). assert (Dv0 : 0 <= Dv) by (apply Rmult_le_pos; lra).
  assert (VB : V <= 1024 * r) by (apply Rle_trans with (1024 * (sg * V)); [|apply Rmult_le_compat_l; lra]; assert (1 <= 1024 * sg) by lra; nra).
  assert (YiB : Yi <= 1048576 * r) by (unfold Yi; rewrite (Rmult_comm Y); apply Rmult_le_compat; lra).
  assert (DvB : Dv <= 16384 * (1024 * r)) by (unfold Dv; apply Rmult_le_compat; lra).
  assert (K1 : sg * (B2R dl * Yi) <= r) by (replace (sg * (B2R dl * Yi)) with (g * Y) by (unfold g, Yi; ring); nra).
  assert (K2 : sg * (B2R dl * Dv) <= r).
  { replace (sg * (B2R dl * Dv)) with (B2R dl * B2R d * (sg * V)) by (unfold Dv; ring). assert (0 <= B2R dl * B2R d) by (apply Rmult_le_pos; lra). assert (0 <= sg * V) by (apply Rmult_le_pos; lra). nra. }
  assert (KY0 : 0 <= B2R dl * Yi) by (apply Rmult_le_pos; lra). assert (KD0 : 0 <= B2R dl * Dv) by (apply Rmult_le_pos; lra).
  assert (KYB : B2R dl * Yi <= 4 * (1048576 * r)) by (apply Rmult_le_compat; lra).
  assert (KDB : B2R dl * Dv <= 4 * (16384 * (1024 * r))) by (apply Rmult_le_compat; lra).
  assert (BIG : big = 85070591730234615865843651857942052864) by reflexivity.
  assert (EI : eta * i <= 1048576 * eta) by (rewrite Rmult_comm; apply Rmult_le_compat_r; lra). assert (EI0 : 0 <= eta * i) by (apply Rmult_le_pos; lra).
  (* the spring force *)
  pose proof (appr_minus a x _ _ 0 0 Y (appr_exact a FA) (appr_exact x FX)) as A1.
  assert (A1' : appr (Bminus mode_NE a x) (- y) (u24 * Y + eta)).
  { replace (- y) with (B2R a - B2R x) by (unfold y; ring). eapply appr_le; [apply A1|].
    - unfold Y, y. rewrite Rabs_minus_sym. lra.
    - rewrite BIG. lra.
    - lra. }
  clear A1. assert (MY : Rabs (- y) <= Y) by (rewrite Rabs_Ropp; apply Rle_refl).
  pose proof (appr_div _ s _ _ Y ltac:(lra) A1' MY) as A2.
  assert (A2' : appr (Bdiv mode_NE (Bminus mode_NE a x) s) (- y * i) (3 * u24 * Yi + 2 * (eta * i) + eta)).
  { eapply appr_le; [apply A2|].
    - unfold Rdiv. fold i. replace ((Y + (u24 * Y + eta)) * i) with (Yi + u24 * Yi + eta * i) by (unfold Yi; ring). rewrite U, BIG. lra.
    - unfold Rdiv. fold i. replace ((u24 * Y + eta) * i) with (u24 * Yi + eta * i) by (unfold Yi; ring). fold Yi. rewrite U. lra. }
  clear A2. assert (MYi : Rabs (- y * i) <= Yi) by (rewrite Rabs_mult, (Rabs_pos_eq i) by lra; apply Rmult_le_compat_r; lra).
  (* drag *)
  pose proof (appr_scale d v _ 0 V FD (proj1 DD) (appr_exact v FV) (Rle_refl _)) as A3.
  assert (A3' : appr (Bmult mode_NE d v) (B2R d * B2R v) (u24 * Dv + eta)).
  { eapply appr_le; [apply A3|].
    - rewrite Rplus_0_r. fold Dv. rewrite BIG. lra.
    - fold Dv. lra. }
  clear A3. assert (MDv : Rabs (B2R d * B2R v) <= Dv) by (rewrite Rabs_mult, (Rabs_pos_eq (B2R d)) by lra; apply Rle_refl).
  (* acceleration *)
  set (q := - y * i - B2R d * B2R v).
  assert (MQ : Rabs q <= Yi + Dv) by (unfold q, Rminus; eapply Rle_trans; [apply Rabs_triang|]; rewrite Rabs_Ropp; lra).
  pose proof (appr_minus _ _ _ _ _ _ _ A2' A3' MQ) as A4.
  assert (A4' : appr (acc1 s d x v a) q (5 * u24 * Yi + 3 * u24 * Dv + 3 * (eta * i) + 4 * eta)).
  { eapply appr_le; [apply A4|]; rewrite ?BIG, U; lra. }
  clear A4.
  (* velocity *)
  pose proof (appr_scale dl _ _ _ _ FL (proj1 DL) A4' MQ) as A5.
  assert (DE : B2R dl * eta <= 4 * eta) by (apply Rmult_le_compat_r; lra). assert (DE0 : 0 <= B2R dl * eta) by (apply Rmult_le_pos; lra).
  assert (DEI : B2R dl * (eta * i) <= 4 * (eta * i)) by (apply Rmult_le_compat_r; lra). assert (DEI0 : 0 <= B2R dl * (eta * i)) by (apply Rmult_le_pos; lra).
  assert (A5' : appr (Bmult mode_NE dl (acc1 s d x v a)) (B2R dl * q) (7 * u24 * (B2R dl * Yi) + 5 * u24 * (B2R dl * Dv) + 4 * (B2R dl * (eta * i)) + 5 * (B2R dl * eta) + eta)).
  { eapply appr_le; [apply A5|].
    - replace (B2R dl * (Yi + Dv + (5 * u24 * Yi + 3 * u24 * Dv + 3 * (eta * i) + 4 * eta)))
        with (B2R dl * Yi + B2R dl * Dv + 5 * u24 * (B2R dl * Yi) + 3 * u24 * (B2R dl * Dv) + 3 * (B2R dl * (eta * i)) + 4 * (B2R dl * eta)) by ring.
      rewrite BIG, U. lra.
    - replace (B2R dl * (5 * u24 * Yi + 3 * u24 * Dv + 3 * (eta * i) + 4 * eta))
        with (5 * u24 * (B2R dl * Yi) + 3 * u24 * (B2R dl * Dv) + 3 * (B2R dl * (eta * i)) + 4 * (B2R dl * eta)) by ring.
      replace (B2R dl * (Yi + Dv)) with (B2R dl * Yi + B2R dl * Dv) by ring. rewrite U. lra. }
  clear A5. set (v1 := B2R v + B2R dl * q).
  assert (MV : Rabs v1 <= V + B2R dl * Yi + B2R dl * Dv).
  { unfold v1. eapply Rle_trans; [apply Rabs_triang|]. rewrite Rabs_mult, (Rabs_pos_eq (B2R dl)) by lra. fold V. nra. }
  pose proof (appr_plus v _ _ _ _ _ _ (appr_exact v FV) A5' MV) as A6.
  set (e6 := 9 * u24 * (B2R dl * Yi) + 7 * u24 * (B2R dl * Dv) + 5 * (B2R dl * (eta * i)) + 6 * (B2R dl * eta) + u24 * V + 3 * eta).
  assert (A6' : appr (vel1 s d dl x v a) v1 e6).
  { eapply appr_le; [apply A6|]; unfold e6; rewrite ?BIG, U; lra. }
  clear A6.
  assert (SE : sg * e6 <= 18 * u24 * r).
  { unfold e6. replace (sg * (9 * u24 * (B2R dl * Yi) + 7 * u24 * (B2R dl * Dv) + 5 * (B2R dl * (eta * i)) + 6 * (B2R dl * eta) + u24 * V + 3 * eta))
      with (9 * u24 * (sg * (B2R dl * Yi)) + 7 * u24 * (sg * (B2R dl * Dv)) + 5 * (g * eta) + 6 * (sg * (B2R dl * eta)) + u24 * (sg * V) + 3 * (sg * eta)) by (unfold g; ring).
    assert (g * eta <= eta) by nra. assert (sg * (B2R dl * eta) <= 1024 * (4 * eta)) by (apply Rmult_le_compat; lra). assert (sg * eta <= 1024 * eta) by (apply Rmult_le_compat_r; lra).
    rewrite U. lra. }
  assert (SM : sg * (V + B2R dl * Yi + B2R dl * Dv) <= 3 * r) by lra.
  assert (e60 : 0 <= e6) by (unfold e6; rewrite U; lra).
  (* position *)
  set (m6 := V + B2R dl * Yi + B2R dl * Dv) in *. assert (m60 : 0 <= m6) by (unfold m6; lra).
  assert (DM : B2R dl * m6 <= 3 * r).
  { rewrite <- GS. rewrite Rmult_assoc. assert (0 <= sg * m6) by (apply Rmult_le_pos; lra). nra. }
  assert (DE6 : B2R dl * e6 <= 18 * u24 * r).
  { rewrite <- GS. rewrite Rmult_assoc. assert (0 <= sg * e6) by (apply Rmult_le_pos; lra). nra. }
  assert (DM0 : 0 <= B2R dl * m6) by (apply Rmult_le_pos; lra). assert (DE60 : 0 <= B2R dl * e6) by (apply Rmult_le_pos; lra).
  pose proof (appr_scale dl _ _ _ _ FL (proj1 DL) A6' MV) as A7.
  assert (A7' : appr (Bmult mode_NE dl (vel1 s d dl x v a)) (B2R dl * v1) (24 * u24 * r)).
  { eapply appr_le; [apply A7|].
    - rewrite Rmult_plus_distr_l. rewrite BIG. rewrite U in DE6. lra.
    - rewrite U in *. lra. }
  clear A7.
  assert (MX : Rabs (B2R x + B2R dl * v1) <= 4294967296 + 4 * r).
  { replace (B2R x + B2R dl * v1) with (B2R a + y + B2R dl * v1) by (unfold y; ring).
    eapply Rle_trans; [apply Rabs_triang|]. eapply Rle_trans; [apply Rplus_le_compat_r; apply Rabs_triang|].
    rewrite Rabs_mult, (Rabs_pos_eq (B2R dl)) by lra. fold Y.
    assert (B2R dl * Rabs v1 <= B2R dl * m6) by (apply Rmult_le_compat_l; lra). lra. }
  pose proof (appr_plus x _ _ _ _ _ _ (appr_exact x FX) A7' MX) as A8.
  assert (A8' : appr (pos1 s d dl x v a) (B2R x + B2R dl * v1) (32 * u24 * r + 256)).
  { eapply appr_le; [apply A8|]; rewrite ?BIG, U; lra. }
  clear A8.
  (* energy *)
  split; [apply A4'|]. split.
  { eapply Rle_trans; [eapply appr_abs; [exact A4'|exact MQ]|]. change (IZR (2 ^ 93)) with 9903520314283042199192993792. rewrite U. lra. }
  split; [apply A8'|]. split; [apply A6'|].
  destruct A8' as [_ A8']. destruct A6' as [_ A6'].
  assert (W : Rabs (sg * B2R (vel1 s d dl x v a) - sg * v1) <= 18 * u24 * r).
  { rewrite <- Rmult_minus_distr_l, Rabs_mult, (Rabs_pos_eq sg) by lra. eapply Rle_trans; [apply Rmult_le_compat_l; [lra|exact A6']|exact SE]. }
  assert (P : Rabs (B2R (pos1 s d dl x v a) - B2R a - (y + B2R dl * v1)) <= 32 * u24 * r + 256).
  { replace (B2R (pos1 s d dl x v a) - B2R a - (y + B2R dl * v1)) with (B2R (pos1 s d dl x v a) - (B2R x + B2R dl * v1)) by (unfold y; ring). exact A8'. }
  assert (E1 : sg * v1 = al * (sg * B2R v) - g * y) by (unfold v1, q, al, g; ring).
  assert (E2 : y + B2R dl * v1 = y + g * (sg * v1)) by (rewrite <- GS; ring).
  pose proof (energy_step y (sg * B2R v) g al (proj1 AL0) AG) as ES1. cbv zeta in ES1. rewrite <- E1, <- E2 in ES1.
  assert (R0 : 0 <= r) by lra. pose proof (near_circle _ _ _ _ _ _ r P W R0 (Rle_trans _ _ _ ES1 EN)) as NC.
  eapply Rle_trans; [exact NC|]. clear - R1 U. apply Rmult_le_compat; rewrite U; lra.
Qed.
