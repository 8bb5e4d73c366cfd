(** * C52 in binary32/binary64: the results stay near the inputs, however long the stroke. *)
From Coq Require Import ZArith Bool List Sorted Reals Lra Lia Psatz.
From Flocq Require Import Core.Core IEEE754.BinarySingleNaN Relative Plus_error.
From Verif Require Export Props_Finite.
From Verif Require Props_Bounded.
Import ListNotations.
Open Scope R_scope.

(** ** Specification *)
(** A well damped spring with steps short enough (the library's recommended parameters
    have 1.76, 72 and 4.4 here), at most 2^17 results per call, no extra samples for
    sharp turns (the default), and smoothing off. *)
Record damped_params {acosf : float32 -> float32} (p : StrokeModelParams (A := ieee acosf)) : Prop := mkDamped {
  dm_steady : steady_params p;
  dm_ratio : 1 <= B2R (pp_spring (p_position p) : float32) * (B2R (pp_drag (p_position p) : float32) * B2R (pp_drag (p_position p) : float32)) <= 3;
  dm_drag : 16 <= B2R (pp_drag (p_position p) : float32);
  dm_rate : 17 / 4 <= B2R (sp_rate (p_sampling p) : float64) * (B2R (pp_spring (p_position p) : float32) * B2R (pp_drag (p_position p) : float32));
  dm_max : (sp_max_outputs (p_sampling p) <= 131072)%Z;
  dm_angle : dltb d0 (sp_max_angle (p_sampling p)) = false;
  dm_raw : wp_enabled (p_wobble p) = false
}.
(** A point of the box of half-width [b] around the origin. *)
Definition in_box {acosf : float32 -> float32} (b : R) (q : Vec2 (A := ieee acosf)) : Prop := fin_le b (vx q) /\ fin_le b (vy q).
(** Simultaneous, or at least 2^-16 seconds (15 microseconds) apart. *)
Definition step_apart {acosf : float32 -> float32} (a b : Input (A := ieee acosf)) : Prop :=
  B2R (i_time a : float64) = B2R (i_time b : float64) \/ / 65536 <= B2R (i_time b : float64) - B2R (i_time a : float64).
(** The inputs of a stroke: moderate (as in C49), all in the box, accepted ones not too close in time. *)
Definition boxed_inputs {acosf : float32 -> float32} (b : R) (p : StrokeModelParams (A := ieee acosf)) (accepted seen : list (Input (A := ieee acosf))) : Prop :=
  moderate_inputs p accepted seen /\ Forall (fun i : Input (A := ieee acosf) => in_box b (i_pos i)) seen /\ Sorted step_apart accepted.

(** ** One step of the tip in exact arithmetic: it shrinks *)
Notation form := Props_Bounded.form.
(** The tip is within [K] times the inputs' bound [B] of the origin. *)
Definition ball (m K B e y : R) : Prop := form m e y <= K * K * ((1 - m / 5) * (B * B)).
Lemma form_pos : forall m e y, 1 <= m <= 3 -> 0 <= form m e y.
Proof. intros m e y M. eapply Rle_trans; [|apply Props_Bounded.form_nn; exact M]. apply Rmult_le_pos; [lra|apply Rle_0_sqr]. Qed.
Lemma form_speed : forall m e y, 1 <= m <= 3 -> 4 / 5 * (1 - m / 5) * (y * y) <= form m e y.
Proof.
  intros m e y M. unfold form.
  assert (H : e * e + 4 / 5 * m * (e * y + y * y) = (e + 2 / 5 * m * y) * (e + 2 / 5 * m * y) + 4 / 5 * m * (1 - m / 5) * (y * y)) by field.
  rewrite H. pose proof (Rle_0_sqr (e + 2 / 5 * m * y)) as Q. unfold Rsqr in Q.
  assert (0 <= 4 / 5 * (m - 1) * (1 - m / 5) * (y * y)) by (apply Rmult_le_pos; [apply Rmult_le_pos; lra|apply Rle_0_sqr]). lra.
Qed.
Lemma form_0 : forall m e y, 1 <= m <= 3 -> form m e y <= 0 -> e = 0 /\ y = 0.
Proof.
  intros m e y M H. pose proof (Props_Bounded.form_nn m e y M). pose proof (form_speed m e y M). pose proof (Rle_0_sqr e). pose proof (Rle_0_sqr y). unfold Rsqr in *.
  assert (E : 0 < 1 - m / 5) by lra. assert (E2 : 0 < 4 / 5 * (1 - m / 5)) by lra. clear - E E2 H H0 H1 H2 H3.
  split; apply Rsqr_0_uniq; unfold Rsqr; nra.
Qed.
(** The triangle inequality. *)
Lemma form_add : forall m p q T a1 a2 d1 d2, 1 <= m <= 3 -> 0 <= p -> 0 <= q -> 0 <= T ->
  form m a1 a2 <= p * p * T -> form m d1 d2 <= q * q * T -> form m (a1 + d1) (a2 + d2) <= (p + q) * (p + q) * T.
Proof.
  intros m p q T a1 a2 d1 d2 M P Q T0 HA HD.
  destruct (Req_dec p 0) as [->|P1].
  { replace (0 * 0 * T) with 0 in HA by ring. destruct (form_0 m a1 a2 M HA) as [-> ->]. rewrite !Rplus_0_l. exact HD. }
  destruct (Req_dec q 0) as [->|Q1].
  { replace (0 * 0 * T) with 0 in HD by ring. destruct (form_0 m d1 d2 M HD) as [-> ->]. rewrite !Rplus_0_r. exact HA. }
  set (bil := a1 * d1 + 2 / 5 * m * (a1 * d2 + a2 * d1) + 4 / 5 * m * (a2 * d2)).
  assert (E1 : form m (a1 + d1) (a2 + d2) = form m a1 a2 + form m d1 d2 + 2 * bil) by (unfold bil, form; field).
  assert (E2 : form m (q * a1 - p * d1) (q * a2 - p * d2) = q * q * form m a1 a2 + p * p * form m d1 d2 - 2 * (p * q * bil)) by (unfold bil, form; field).
  pose proof (form_pos m (q * a1 - p * d1) (q * a2 - p * d2) M) as N. rewrite E2 in N.
  assert (PQ : 0 < p * q) by (apply Rmult_lt_0_compat; lra).
  assert (H1 : q * q * form m a1 a2 <= q * q * (p * p * T)) by (apply Rmult_le_compat_l; [apply Rle_0_sqr|exact HA]).
  assert (H2 : p * p * form m d1 d2 <= p * p * (q * q * T)) by (apply Rmult_le_compat_l; [apply Rle_0_sqr|exact HD]).
  assert (B : bil <= p * q * T).
  { apply Rmult_le_reg_l with (p * q); [exact PQ|]. replace (p * q * (p * q * T)) with (q * q * (p * p * T)) by ring.
    replace (p * p * (q * q * T)) with (q * q * (p * p * T)) in H2 by ring. lra. }
  rewrite E1. replace ((p + q) * (p + q) * T) with (p * p * T + q * q * T + 2 * (p * q * T)) by ring. lra.
Qed.
Lemma ball_mono : forall m K L B e y, 1 <= m <= 3 -> 0 <= K <= L -> ball m K B e y -> ball m L B e y.
Proof.
  intros m K L B e y M KL H. unfold ball in *. eapply Rle_trans; [exact H|]. apply Rmult_le_compat_r.
  - apply Rmult_le_pos; [lra|apply Rle_0_sqr].
  - apply Rmult_le_compat; lra.
Qed.
Lemma square_le : forall x b, 0 <= b -> x * x <= b * b -> Rabs x <= b.
Proof. intros x b B H. apply Rabs_le. split; nra. Qed.
Lemma ball_bounds : forall m K B e y, 1 <= m <= 3 -> 0 <= K -> 0 <= B -> ball m K B e y -> Rabs e <= K * B /\ Rabs y <= 9 / 8 * (K * B).
Proof.
  intros m K B e y M K0 B0 H. unfold ball in H. assert (KB : 0 <= K * B) by (apply Rmult_le_pos; assumption). assert (P : 0 < 1 - m / 5) by lra.
  replace (K * K * ((1 - m / 5) * (B * B))) with ((1 - m / 5) * ((K * B) * (K * B))) in H by ring. split.
  - apply square_le; [exact KB|]. apply Rmult_le_reg_l with (1 - m / 5); [exact P|]. eapply Rle_trans; [apply Props_Bounded.form_nn; exact M|exact H].
  - apply square_le; [lra|]. pose proof (form_speed m e y M) as Q. apply Rmult_le_reg_l with (4 / 5 * (1 - m / 5)); [lra|].
    eapply Rle_trans; [exact Q|]. eapply Rle_trans; [exact H|]. replace (4 / 5 * (1 - m / 5) * (9 / 8 * (K * B) * (9 / 8 * (K * B)))) with ((1 - m / 5) * (81 / 80 * (K * B * (K * B)))) by field.
    apply Rmult_le_compat_l; [lra|]. pose proof (Rle_0_sqr (K * B)) as S. unfold Rsqr in S. lra.
Qed.
(** One step of length [s] pulled towards [u], then moved by ([d1], [d2]). *)
Lemma ball_step : forall s m K B e y u q d1 d2, 0 <= s <= 1 -> 1 <= m <= 3 -> 0 <= K -> 0 <= q -> Rabs u <= B -> ball m K B e y -> ball m q B d1 d2 ->
  let y' := y + (s / 4 * (u - e) - s * m / 4 * y) in ball m ((1 - s * m / 12) * K + s * m / 12 * (7 / 2) + q) B (e + s * m / 4 * y' + d1) (y' + d2).
Proof.
  intros s m K B e y u q d1 d2 S M K0 Q0 U F FD y'. unfold ball in *. set (T := (1 - m / 5) * (B * B)) in *.
  set (a1 := (1 - s * s * m / 16) * e + s * m / 4 * (1 - s * m / 4) * y). set (a2 := - (s / 4) * e + (1 - s * m / 4) * y).
  set (k := s * m / 12). set (n := 1 - k). set (b1 := 3 / m * u * (s * m / 4)). set (b2 := 3 / m * u).
  assert (SM : 0 <= s * m <= 1 * 3) by (split; [apply Rmult_le_pos; lra|apply Rmult_le_compat; lra]).
  assert (KK : 0 <= k <= 1 / 4) by (unfold k; lra).
  assert (N : 3 / 4 <= n) by (unfold n; lra). assert (B0 : 0 <= B) by (eapply Rle_trans; [apply Rabs_pos|exact U]).
  assert (T0 : 0 <= T) by (apply Rmult_le_pos; [lra|apply Rmult_le_pos; exact B0]).
  assert (FA : form m a1 a2 <= n * K * (n * K) * T).
  { eapply Rle_trans; [apply Props_Bounded.form_shrinks; assumption|]. fold k. fold n. replace (n * K * (n * K) * T) with (n * n * (K * K * T)) by ring. apply Rmult_le_compat_l; [apply Rle_0_sqr|exact F]. }
  assert (UU : u * u <= B * B).
  { rewrite <- (Rabs_pos_eq (u * u)) by apply Rle_0_sqr. rewrite Rabs_mult. apply Rmult_le_compat; try apply Rabs_pos; exact U. }
  assert (FB : form m b1 b2 <= 49 / 4 * T).
  { unfold b1, b2, form, T.
    replace (3 / m * u * (s * m / 4) * (3 / m * u * (s * m / 4)) + 4 / 5 * m * (3 / m * u * (s * m / 4) * (3 / m * u) + 3 / m * u * (3 / m * u))) with
      (9 * (s * s / 16 + s / 5 + 4 / 5 / m) * (u * u)) by (field; lra).
    replace (49 / 4 * ((1 - m / 5) * (B * B))) with (49 / 4 * (1 - m / 5) * (B * B)) by ring.
    apply Rmult_le_compat; [|apply Rle_0_sqr| |exact UU].
    - assert (0 < / m) by (apply Rinv_0_lt_compat; lra). assert (0 <= s * s) by apply Rle_0_sqr. lra.
    - assert (SS : s * s <= 1 * 1) by (apply Rmult_le_compat; lra). assert (I : 4 / 5 / m <= 4 / 3 * 4 / 5 - 4 / 15 * m).
      { apply Rmult_le_reg_r with m; [lra|]. replace (4 / 5 / m * m) with (4 / 5) by (field; lra).
        assert (0 <= (m - 1) * (3 - m)) by (apply Rmult_le_pos; lra). lra. }
      lra. }
  assert (FB' : form m (k * b1) (k * b2) <= k * (7 / 2) * (k * (7 / 2)) * T).
  { replace (form m (k * b1) (k * b2)) with (k * k * form m b1 b2) by (unfold form; ring). replace (k * (7 / 2) * (k * (7 / 2)) * T) with (k * k * (49 / 4 * T)) by field.
    apply Rmult_le_compat_l; [apply Rle_0_sqr|exact FB]. }
  assert (E1 : e + s * m / 4 * y' = a1 + k * b1) by (unfold y', a1, b1, k; field; lra).
  assert (E2 : y' = a2 + k * b2) by (unfold y', a2, b2, k; field; lra).
  assert (NK : 0 <= n * K) by (apply Rmult_le_pos; lra).
  rewrite E1, E2. apply form_add; try assumption.
  - apply Rplus_le_le_0_compat; lra.
  - apply form_add; try assumption; lra.
Qed.

(** ** One step in binary32 *)
Definition B60 : R := / 1152921504606846976.
Lemma eta_tiny : eta <= / 1361129467683753853853498429727072845824.
Proof. change (/ 1361129467683753853853498429727072845824) with (bpow radix2 (-130)). apply bpow_le. lia. Qed.
(** The parameters, and a step no longer than the spring allows. *)
Record stride (s d dl : float32) : Prop := mkStride {
  sr_fin : is_finite dl = true /\ is_finite d = true;
  sr_s : / 1048576 <= B2R s <= 1048576;
  sr_d : 0 < B2R d;
  sr_m : 1 <= B2R s * (B2R d * B2R d) <= 3;
  sr_dl : 0 <= 4 * B2R dl <= B2R s * B2R d
}.
Lemma stride_rounding : forall s d dl x v a r, stride s d dl -> is_finite a = true -> is_finite x = true -> is_finite v = true ->
  B60 <= r <= 17179869184 -> Rabs (B2R x) <= r -> Rabs (B2R a - B2R x) <= r -> Rabs (B2R v) <= B2R d * r ->
  let q := (B2R a - B2R x) / B2R s - B2R d * B2R v in
  is_finite (acc1 s d x v a) = true /\ Rabs (B2R (acc1 s d x v a)) <= 5 * (1048576 * r) /\
  appr (vel1 s d dl x v a) (B2R v + B2R dl * q) (7 * u24 * (B2R d * r)) /\
  appr (pos1 s d dl x v a) (B2R x + B2R dl * (B2R v + B2R dl * q)) (10 * u24 * r).
Proof.
  intros s d dl x v a r [[FL FD] SS D0 MM HH] FA FX FV RR BX BY BV. unfold B60 in RR.
  assert (U : u24 = / 16777216) by reflexivity. pose proof eta_pos as T0. pose proof eta_tiny as T1.
  set (y := B2R a - B2R x) in *. set (S := B2R s) in *. set (D := B2R d) in *. set (h := B2R dl) in *. set (V := B2R v) in *.
  set (i := / S). assert (I1 : S * i = 1) by (apply Rinv_r; lra). assert (I0 : / 1048576 <= i) by (apply Rinv_le_contravar; lra).
  assert (I2 : i <= 1048576) by (replace 1048576 with (/ / 1048576) by lra; apply Rinv_le_contravar; lra).
  set (Q := r * i). assert (R0 : 0 < r) by lra. assert (Q0 : 0 < Q) by (apply Rmult_lt_0_compat; lra).
  (* products *)
  assert (DD : D * D <= 3 * i) by (apply Rmult_le_reg_l with S; [lra|]; replace (S * (3 * i)) with (3 * (S * i)) by ring; rewrite I1; lra).
  assert (DD1 : i <= D * D) by (apply Rmult_le_reg_l with S; [lra|]; rewrite I1; lra).
  assert (DL : / 1024 <= D) by (clear - DD1 I0 D0; apply Rnot_lt_le; intros H; assert (D * D < / 1024 * / 1024) by nra; lra).
  assert (DU : D <= 2048) by (clear - DD I2 D0; apply Rnot_lt_le; intros H; assert (2048 * 2048 < D * D) by nra; lra).
  assert (H0 : 0 <= h) by lra.
  assert (HI : h * i <= D / 4) by (apply Rmult_le_reg_l with S; [lra|]; replace (S * (h * i)) with (h * (S * i)) by ring; rewrite I1; lra).
  assert (HD : h * D <= 3 / 4).
  { apply Rle_trans with (S * D / 4 * D); [apply Rmult_le_compat_r; lra|]. replace (S * D / 4 * D) with (S * (D * D) / 4) by field. lra. }
  set (W := D * r). assert (W0 : 0 < W) by (apply Rmult_lt_0_compat; lra).
  assert (HQ : h * Q <= W / 4) by (unfold Q, W; replace (h * (r * i)) with (h * i * r) by ring; replace (D * r / 4) with (D / 4 * r) by field; apply Rmult_le_compat_r; lra).
  assert (HQ0 : 0 <= h * Q) by (apply Rmult_le_pos; lra).
  assert (HW : h * W <= 3 / 4 * r) by (unfold W; rewrite <- Rmult_assoc; apply Rmult_le_compat_r; lra).
  assert (HW0 : 0 <= h * W) by (apply Rmult_le_pos; lra).
  assert (DW : D * W <= 3 * Q) by (unfold W, Q; rewrite <- Rmult_assoc; replace (3 * (r * i)) with (3 * i * r) by ring; apply Rmult_le_compat_r; lra).
  assert (DW0 : 0 <= D * W) by (apply Rmult_le_pos; lra).
  (* the underflow error is negligible *)
  assert (QL : / 1048576 * r <= Q) by (unfold Q; rewrite Rmult_comm; apply Rmult_le_compat_l; lra).
  assert (QU : Q <= 1048576 * r) by (unfold Q; rewrite Rmult_comm; apply Rmult_le_compat_r; lra).
  assert (WL : / 1024 * r <= W) by (unfold W; apply Rmult_le_compat_r; lra).
  assert (WU : W <= 2048 * r) by (unfold W; apply Rmult_le_compat_r; lra).
  assert (ER : eta <= / 1000000 * (u24 * r)) by (rewrite U; lra).
  assert (EQ : eta <= / 1000 * (u24 * Q)) by (rewrite U; lra).
  assert (EW : eta <= / 1000 * (u24 * W)) by (rewrite U; lra).
  assert (EI : eta * i <= / 1000000 * (u24 * Q)) by (unfold Q; replace (/ 1000000 * (u24 * (r * i))) with (/ 1000000 * (u24 * r) * i) by ring; apply Rmult_le_compat_r; lra).
  assert (HE : h * eta <= / 1000 * (u24 * W)).
  { apply Rle_trans with (h * (/ 1000 * (u24 * Q))); [apply Rmult_le_compat_l; lra|]. replace (h * (/ 1000 * (u24 * Q))) with (/ 1000 * (u24 * (h * Q))) by ring. rewrite U. lra. }
  assert (BIG : big = 85070591730234615865843651857942052864) by reflexivity.
  (* the spring force *)
  pose proof (appr_minus a x _ _ 0 0 r (appr_exact a FA) (appr_exact x FX) BY) as A1.
  assert (A1' : appr (Bminus mode_NE a x) y (2 * u24 * r)) by (eapply appr_le; [apply A1|]; rewrite ?BIG, ?U; try lra; rewrite U in ER; lra).
  clear A1.
  pose proof (appr_div _ s _ _ r ltac:(fold S; lra) A1' BY) as A2. unfold Rdiv in A2. fold S i in A2.
  replace ((r + 2 * u24 * r) * i) with (Q + 2 * u24 * Q) in A2 by (unfold Q; ring). replace (2 * u24 * r * i) with (2 * u24 * Q) in A2 by (unfold Q; ring). fold Q in A2.
  assert (A2' : appr (Bdiv mode_NE (Bminus mode_NE a x) s) (y * i) (4 * u24 * Q)) by (eapply appr_le; [apply A2|]; rewrite ?BIG, ?U; rewrite ?U in *; lra).
  clear A2. assert (MY : Rabs (y * i) <= Q) by (unfold Q; rewrite Rabs_mult, (Rabs_pos_eq i) by lra; apply Rmult_le_compat_r; lra).
  (* drag *)
  pose proof (appr_scale d v _ 0 W FD (Rlt_le _ _ D0) (appr_exact v FV) BV) as A3. fold D V in A3. rewrite Rplus_0_r, Rmult_0_r, Rmult_0_r in A3.
  assert (A3' : appr (Bmult mode_NE d v) (D * V) (4 * u24 * Q)) by (eapply appr_le; [apply A3|]; rewrite ?BIG, ?U; rewrite ?U in *; lra).
  clear A3. assert (MV : Rabs (D * V) <= 3 * Q) by (rewrite Rabs_mult, (Rabs_pos_eq D) by lra; eapply Rle_trans; [apply Rmult_le_compat_l; [lra|exact BV]|exact DW]).
  (* acceleration *)
  set (q := y / S - D * V). assert (EQQ : q = y * i - D * V) by reflexivity. 
  assert (MQ : Rabs (y * i - D * V) <= 4 * Q) by (unfold Rminus; eapply Rle_trans; [apply Rabs_triang|]; rewrite Rabs_Ropp; lra).
  pose proof (appr_minus _ _ _ _ _ _ _ A2' A3' MQ) as A4. rewrite <- EQQ in A4, MQ. clearbody q.
  assert (A4' : appr (acc1 s d x v a) q (13 * u24 * Q)) by (eapply appr_le; [apply A4|]; rewrite ?BIG, ?U; rewrite ?U in *; lra).
  clear A4.
  (* velocity *)
  pose proof (appr_scale dl _ _ _ _ FL H0 A4' MQ) as A5. fold h in A5.
  replace (h * (4 * Q + 13 * u24 * Q)) with (4 * (h * Q) + 13 * u24 * (h * Q)) in A5 by ring. replace (h * (13 * u24 * Q)) with (13 * u24 * (h * Q)) in A5 by ring. replace (h * (4 * Q)) with (4 * (h * Q)) in A5 by ring.
  assert (A5' : appr (Bmult mode_NE dl (acc1 s d x v a)) (h * q) (9 / 2 * u24 * W)) by (eapply appr_le; [apply A5|]; rewrite ?BIG, ?U; rewrite ?U in *; lra).
  clear A5. assert (MHQ : Rabs (h * q) <= W) by (rewrite Rabs_mult, (Rabs_pos_eq h) by lra; apply Rle_trans with (h * (4 * Q)); [apply Rmult_le_compat_l; lra|lra]).
  assert (MV1 : Rabs (V + h * q) <= 2 * W) by (eapply Rle_trans; [apply Rabs_triang|]; fold W in BV; lra).
  pose proof (appr_plus v _ _ _ _ _ _ (appr_exact v FV) A5' MV1) as A6. fold V in A6.
  assert (A6' : appr (vel1 s d dl x v a) (V + h * q) (7 * u24 * W)) by (eapply appr_le; [apply A6|]; rewrite ?BIG, ?U; rewrite ?U in *; lra).
  clear A6.
  (* position *)
  pose proof (appr_scale dl _ _ _ _ FL H0 A6' MV1) as A7. fold h in A7.
  replace (h * (2 * W + 7 * u24 * W)) with (2 * (h * W) + 7 * u24 * (h * W)) in A7 by ring. replace (h * (7 * u24 * W)) with (7 * u24 * (h * W)) in A7 by ring. replace (h * (2 * W)) with (2 * (h * W)) in A7 by ring.
  assert (A7' : appr (Bmult mode_NE dl (vel1 s d dl x v a)) (h * (V + h * q)) (7 * u24 * r)) by (eapply appr_le; [apply A7|]; rewrite ?BIG, ?U; rewrite ?U in *; lra).
  clear A7. assert (MHV : Rabs (h * (V + h * q)) <= 3 / 2 * r) by (rewrite Rabs_mult, (Rabs_pos_eq h) by lra; apply Rle_trans with (h * (2 * W)); [apply Rmult_le_compat_l; lra|lra]).
  assert (MX : Rabs (B2R x + h * (V + h * q)) <= 5 / 2 * r) by (eapply Rle_trans; [apply Rabs_triang|]; lra).
  pose proof (appr_plus x _ _ _ _ _ _ (appr_exact x FX) A7' MX) as A8.
  assert (A8' : appr (pos1 s d dl x v a) (B2R x + h * (V + h * q)) (10 * u24 * r)) by (eapply appr_le; [apply A8|]; rewrite ?BIG, ?U; rewrite ?U in *; lra).
  split; [apply A4'|]. split; [|split; [exact A6'|exact A8']].
  eapply Rle_trans; [eapply appr_abs; [exact A4'|exact MQ]|]. rewrite U. lra.
Qed.

Definition fball (s d : float32) (K B : R) (x v : float32) : Prop :=
  is_finite x = true /\ is_finite v = true /\ ball (B2R s * (B2R d * B2R d)) K B (B2R x) (B2R v / B2R d).
Lemma fball_bounds : forall s d K B x v, 1 <= B2R s * (B2R d * B2R d) <= 3 -> 0 < B2R d -> 0 <= K -> 0 <= B -> fball s d K B x v ->
  Rabs (B2R x) <= K * B /\ Rabs (B2R v) <= B2R d * (9 / 8 * (K * B)).
Proof.
  intros s d K B x v M D K0 B0 (_ & _ & H). destruct (ball_bounds _ _ _ _ _ M K0 B0 H) as [H1 H2]. split; [exact H1|].
  replace (B2R v) with (B2R d * (B2R v / B2R d)) by (field; lra). rewrite Rabs_mult, (Rabs_pos_eq (B2R d)) by lra. apply Rmult_le_compat_l; lra.
Qed.
Lemma fball_step : forall s d dl x v a K B, stride s d dl -> is_finite a = true -> Rabs (B2R a) <= B -> B60 <= B <= 2147483648 -> 4 <= K <= 41 / 10 ->
  fball s d K B x v ->
  let k := B2R dl * B2R d / 3 in
  (is_finite (acc1 s d x v a) = true /\ Rabs (B2R (acc1 s d x v a)) <= 33554432 * B) /\
  fball s d ((1 - k) * K + k * (7 / 2) + / 65536) B (pos1 s d dl x v a) (vel1 s d dl x v a).
Proof.
  intros s d dl x v a K B SR FA BA BB KK FB k. pose proof SR as [[FL FD] SS D0 MM HH].
  assert (B0 : 0 < B) by (unfold B60 in BB; lra). assert (KB : K * B <= 41 / 10 * B) by (apply Rmult_le_compat_r; lra).
  destruct (fball_bounds s d K B x v MM D0 ltac:(lra) ltac:(lra) FB) as [HX HV]. destruct FB as (FX & FV & BL).
  assert (BY : Rabs (B2R a - B2R x) <= 6 * B) by (unfold Rminus; eapply Rle_trans; [apply Rabs_triang|]; rewrite Rabs_Ropp; lra).
  assert (BV : Rabs (B2R v) <= B2R d * (6 * B)) by (eapply Rle_trans; [exact HV|]; apply Rmult_le_compat_l; lra).
  destruct (stride_rounding s d dl x v a (6 * B) SR FA FX FV ltac:(lra) ltac:(lra) BY BV) as (R1 & R2 & [R3 R4] & [R5 R6]).
  split; [split; [exact R1|lra]|]. split; [exact R5|]. split; [exact R3|].
  set (S := B2R s) in *. set (D := B2R d) in *. set (h := B2R dl) in *. set (X := B2R x) in *. set (V := B2R v) in *. set (a0 := B2R a) in *.
  set (q := (a0 - X) / S - D * V) in *. set (x1 := B2R (pos1 s d dl x v a)) in *. set (v1 := B2R (vel1 s d dl x v a)) in *. clearbody x1 v1.
  set (m := S * (D * D)) in *. set (sg := 4 * h / (S * D)).
  assert (S0 : 0 < S) by lra. assert (SD : 0 < S * D) by (apply Rmult_lt_0_compat; lra).
  assert (SG : 0 <= sg <= 1).
  { unfold sg, Rdiv. split; [apply Rmult_le_pos; [lra|left; apply Rinv_0_lt_compat; exact SD]|].
    apply Rmult_le_reg_r with (S * D); [exact SD|]. rewrite Rmult_assoc, Rinv_l by lra. lra. }
  pose proof (ball_step sg m K B X (V / D) a0 (/ 65536) (x1 - (X + h * (V + h * q))) ((v1 - (V + h * q)) / D) SG MM ltac:(lra) ltac:(lra) BA BL) as ST. cbv zeta in ST.
  assert (E0 : sg * m / 12 = k) by (unfold sg, m, k; field; lra).
  assert (E1 : V / D + (sg / 4 * (a0 - X) - sg * m / 4 * (V / D)) = (V + h * q) / D) by (unfold sg, m, q; field; lra).
  rewrite E1, E0 in ST.
  assert (E2 : X + sg * m / 4 * ((V + h * q) / D) + (x1 - (X + h * (V + h * q))) = x1) by (unfold sg, m; field; lra).
  assert (E3 : (V + h * q) / D + (v1 - (V + h * q)) / D = v1 / D) by (field; lra).
  rewrite E2, E3 in ST. apply ST. clear ST E0 E1 E2 E3.
  (* the rounding errors are small *)
  set (de := x1 - (X + h * (V + h * q))) in *. set (dv := v1 - (V + h * q)) in *.
  assert (DY : Rabs (dv / D) <= 7 * u24 * (6 * B)).
  { unfold Rdiv. rewrite Rabs_mult, (Rabs_pos_eq (/ D)) by (left; apply Rinv_0_lt_compat; exact D0). apply Rmult_le_reg_r with D; [exact D0|].
    rewrite Rmult_assoc, Rinv_l, Rmult_1_r by lra. replace (7 * u24 * (6 * B) * D) with (7 * u24 * (D * (6 * B))) by ring. exact R4. }
  set (dy := dv / D) in *. clearbody de dy. set (z := 6 * (u24 * B)). assert (Z0 : 0 < z) by (unfold z, u24; lra).
  replace (7 * u24 * (6 * B)) with (7 * z) in DY by (unfold z; ring). replace (10 * u24 * (6 * B)) with (10 * z) in R6 by (unfold z; ring).
  assert (Q1 : forall p b, Rabs p <= b -> 0 <= p * p <= b * b).
  { intros p b H. split; [apply Rle_0_sqr|]. rewrite <- (Rabs_pos_eq (p * p)) by apply Rle_0_sqr. rewrite Rabs_mult. apply Rmult_le_compat; try apply Rabs_pos; exact H. }
  pose proof (Q1 _ _ R6) as P1. pose proof (Q1 _ _ DY) as P2.
  assert (P3 : Rabs (de * dy) <= 10 * z * (7 * z)) by (rewrite Rabs_mult; apply Rmult_le_compat; try apply Rabs_pos; assumption). apply Rabs_le_inv in P3.
  unfold ball, form. assert (P4 : de * dy + dy * dy <= 119 * (z * z)) by lra.
  assert (P5 : 4 / 5 * m * (de * dy + dy * dy) <= 4 / 5 * m * (119 * (z * z))) by (apply Rmult_le_compat_l; lra).
  assert (P6 : 4 / 5 * m * (119 * (z * z)) <= 4 / 5 * 3 * (119 * (z * z))) by (apply Rmult_le_compat_r; [pose proof (Rle_0_sqr z) as H; unfold Rsqr in H; lra|lra]).
  assert (P7 : 2 / 5 * (B * B) <= (1 - m / 5) * (B * B)) by (apply Rmult_le_compat_r; [apply Rle_0_sqr|lra]).
  assert (P8 : z * z = 36 / 281474976710656 * (B * B)) by (unfold z, u24; field).
  pose proof (Rle_0_sqr B) as P9. unfold Rsqr in P9. lra.
Qed.
(** A step that is long enough makes up for the rounding; any step costs at most 2^-16. *)
Lemma fball_long : forall s d dl x v a B, stride s d dl -> is_finite a = true -> Rabs (B2R a) <= B -> B60 <= B <= 2147483648 ->
  / 10000 <= B2R dl * B2R d -> fball s d 4 B x v -> fball s d 4 B (pos1 s d dl x v a) (vel1 s d dl x v a).
Proof.
  intros s d dl x v a B SR FA BA BB HD FB. destruct (fball_step s d dl x v a 4 B SR FA BA BB ltac:(lra) FB) as [_ (F1 & F2 & K)].
  split; [exact F1|]. split; [exact F2|]. destruct SR as [_ SS D0 MM HH]. eapply ball_mono; [exact MM| |exact K].
  assert (B2R dl * B2R d <= 3 / 4).
  { apply Rle_trans with (B2R s * B2R d / 4 * B2R d); [apply Rmult_le_compat_r; lra|]. replace (B2R s * B2R d / 4 * B2R d) with (B2R s * (B2R d * B2R d) / 4) by field. lra. }
  lra.
Qed.
Lemma fball_any : forall s d dl x v a K B, stride s d dl -> is_finite a = true -> Rabs (B2R a) <= B -> B60 <= B <= 2147483648 -> 4 <= K <= 41 / 10 ->
  fball s d K B x v -> fball s d (K + / 65536) B (pos1 s d dl x v a) (vel1 s d dl x v a).
Proof.
  intros s d dl x v a K B SR FA BA BB KK FB. destruct (fball_step s d dl x v a K B SR FA BA BB KK FB) as [_ (F1 & F2 & H)].
  split; [exact F1|]. split; [exact F2|]. destruct SR as [_ SS D0 MM HH]. eapply ball_mono; [exact MM| |exact H].
  assert (HD : 0 <= B2R dl * B2R d <= 3 / 4).
  { split; [apply Rmult_le_pos; lra|]. apply Rle_trans with (B2R s * B2R d / 4 * B2R d); [apply Rmult_le_compat_r; lra|]. replace (B2R s * B2R d / 4 * B2R d) with (B2R s * (B2R d * B2R d) / 4) by field. lra. }
  set (k := B2R dl * B2R d / 3) in *. assert (K1 : 0 <= k <= 1 / 4) by (unfold k; lra). assert (0 <= k * (K - 7 / 2)) by (apply Rmult_le_pos; lra).
  assert (k * K <= 1 / 4 * (41 / 10)) by (apply Rmult_le_compat; lra). lra.
Qed.

Section Bounded.
Variable acosf : float32 -> float32.
Let A := ieee acosf.
Local Existing Instance A.
Local Notation vec_le := (Props_Finite.vec_le acosf).

(** ** The length of the steps *)
Lemma steps_exact : forall tip a b sp pp n, number_of_steps tip a b sp pp = Ret (IOk n) -> (sp_max_outputs sp < INT_MAX)%Z -> dltb d0 (sp_max_angle sp) = false ->
  is_finite (dmul (f2d (d2f (dsub (i_time b) (i_time a)))) (sp_rate sp) : float64) = true ->
  n = Zceil (B2R (dmul (f2d (d2f (dsub (i_time b) (i_time a)))) (sp_rate sp) : float64)).
Proof.
  intros tip a b sp pp n NS MO OFF. unfold number_of_steps in NS. set (x := dmul (f2d (d2f (dsub (i_time b) (i_time a)))) (sp_rate sp)) in *.
  destruct (dtoint _) as [z|] eqn:Z in NS; cbn [to_int] in NS; [|discriminate NS].
  destruct (absolute_angle_to _ _) in NS; [|discriminate NS]. rewrite OFF in NS.
  destruct (Z.ltb_spec (sp_max_outputs sp) z) as [L|L]; apply ret_inj in NS; [discriminate NS|]. assert (z = n) by congruence. subst z. clear NS.
  intros FX. clearbody x. unfold A in *. cbn [dtoint dceil dofZ ieee] in Z. unfold std_dmin in Z. cbn [dltb ieee] in Z.
  destruct (ofZ_64 INT_MAX) as [I1 I2]; [reflexivity|]. set (M := binary_normalize 53 1024 _ _ mode_NE INT_MAX 0 false) in *.
  destruct (Bltb M (Bnearbyint mode_UP (x : float64))) eqn:E.
  - apply (to_int_some 53 1024) in Z; [|exact _]. destruct Z as (_ & Z & _). rewrite I2, Ztrunc_IZR in Z. lia.
  - apply (to_int_some 53 1024) in Z; [|exact _]. destruct Z as (_ & Z & _). destruct (ceil_fin 53 1024 _ (x : float64) FX) as [_ CE].
    rewrite CE, Ztrunc_IZR in Z. exact Z.
Qed.
Lemma ratio_step_ge : forall n j, (Z.of_nat (S j) <= n)%Z -> (1 <= n <= 1048576)%Z ->
  / IZR n - / 16777216 <= B2R (ratio n (S j)) - B2R (ratio n j).
Proof.
  intros n j J N. destruct (ratio_fin n (S j) J ltac:(unfold INT_MAX; lia)) as (_ & E1 & _). destruct (ratio_fin n j ltac:(lia) ltac:(unfold INT_MAX; lia)) as (_ & E2 & _).
  assert (EX : forall z, (0 <= z <= 1048576)%Z -> r32 (IZR z) = IZR z) by (intros z Z; apply rnd_id; apply (fmt_IZR 24 128 z); [lia|]; rewrite Z.abs_eq by lia; lia).
  rewrite !INR_IZR_INZ in *. rewrite !EX in E1, E2 by lia. rewrite E1, E2. clear E1 E2.
  assert (N0 : 1 <= IZR n) by (apply IZR_le; lia). assert (NI : 0 < / IZR n) by (apply Rinv_0_lt_compat; lra).
  assert (Q : forall k, (Z.of_nat k <= n)%Z -> Rabs (r32 (IZR (Z.of_nat k) / IZR n) - IZR (Z.of_nat k) / IZR n) <= bpow radix2 (-25)).
  { intros k K. apply error_32. unfold Rdiv. rewrite Rabs_pos_eq.
    - apply Rmult_le_reg_r with (IZR n); [lra|]. rewrite Rmult_assoc, Rinv_l by lra. rewrite Rmult_1_r, Rmult_1_l. apply IZR_le. exact K.
    - apply Rmult_le_pos; [apply IZR_le; lia|lra]. }
  pose proof (Q (S j) J) as Q1. pose proof (Q j ltac:(lia)) as Q2. apply Rabs_le_inv in Q1, Q2.
  change (bpow radix2 (-25)) with (/ 33554432) in *. rewrite Nat2Z.inj_succ, succ_IZR in *. unfold Rdiv in *.
  set (q := IZR (Z.of_nat j)) in *. set (i := / IZR n) in *. replace ((q + 1) * i) with (q * i + i) in * by ring. lra.
Qed.
(** As many samples as the rate asks for, at least 2^-16 seconds. *)
Record fine_span (t0 t1 : float64) (rate : R) (n : Z) : Prop := mkFineSpan {
  fs_span : span t0 t1 rate n;
  fs_n : (n <= 131072)%Z;
  fs_long : / 65536 <= B2R t1 - B2R t0;
  fs_few : IZR n <= (B2R t1 - B2R t0) * (rate * (1 + / 1048576)) + 1 + / 1048576
}.
Lemma fine_gap : forall (t0 t1 : float64) rate n j, fine_span t0 t1 rate n -> (Z.of_nat (S j) <= n)%Z ->
  / 100000 <= B2R (interp_t t0 t1 (ratio n (S j)) : float64) - B2R (interp_t t0 t1 (ratio n j) : float64) <= 33 / 32 / rate.
Proof.
  intros t0 t1 rate n j [[[F0 F1] [B0 B1] OR (g & FG & EG) NN RT ST] NN' LO FEW] J.
  assert (N : (1 <= n < INT_MAX)%Z) by (unfold INT_MAX; lia).
  destruct (ratio_fin n (S j) J ltac:(lia)) as (U1 & _). destruct (ratio_fin n j ltac:(lia) ltac:(lia)) as (U0 & _).
  destruct (interp_t_fin acosf t0 t1 g _ F0 F1 OR FG EG U1) as (_ & E1 & L1). destruct (interp_t_fin acosf t0 t1 g _ F0 F1 OR FG EG U0) as (_ & E0 & L0).
  pose proof (ratio_mono n j (S j) ltac:(lia) J ltac:(lia)) as MO. pose proof (ratio_step n j J ltac:(lia)) as RS. pose proof (ratio_step_ge n j J ltac:(lia)) as RG.
  destruct U1 as (_ & P1), U0 as (_ & P0). set (r1 := B2R (ratio n (S j))) in *. set (r0 := B2R (ratio n j)) in *.
  unfold A. fold (interp_t (A := ieee acosf) t0 t1 (ratio n (S j))). rewrite E1, E0. clear E1 E0 L1 L0.
  assert (G0 : 0 <= B2R g) by lra. rewrite <- EG in LO, FEW, ST. set (G := B2R g) in *. pose proof eta_pos as T0. pose proof eta_small as T1.
  assert (M : forall q, 0 <= q <= 1 -> 0 <= r64 (G * q) <= G /\ Rabs (r64 (G * q) - G * q) <= u53 * G + eta).
  { intros q Q. assert (0 <= G * q <= G) by nra. split.
    - split; [apply rnd_ge0; [reflexivity|lra]|apply rnd_le_fmt; [reflexivity|apply fmt_B2R|lra]].
    - eapply Rle_trans; [apply r64_error|]. rewrite (Rabs_pos_eq (G * q)) by lra. unfold u53. lra. }
  destruct (M r1 P1) as [M1 M1']. destruct (M r0 P0) as [M0 M0'].
  set (m1 := r64 (G * r1)) in *. set (m0 := r64 (G * r0)) in *.
  assert (TB : forall m, 0 <= m <= G -> Rabs (B2R t0 + m) <= 2147483648).
  { intros m H. apply Rabs_le_inv in B0, B1. apply Rabs_le. lra. }
  assert (TE : forall m, 0 <= m <= G -> Rabs (r64 (B2R t0 + m) - (B2R t0 + m)) <= / 4194304 + eta).
  { intros m H. eapply Rle_trans; [apply r64_error|]. pose proof (TB m H). unfold u53. lra. }
  pose proof (TE m1 M1) as T1'. pose proof (TE m0 M0) as T0'. apply Rabs_le_inv in T1', T0', M1', M0'. clear TE TB M.
  assert (N1 : 1 <= IZR n) by (apply IZR_le; lia). assert (N2 : IZR n <= 131072) by (apply IZR_le; lia).
  set (ri := / rate) in *. assert (RI : rate * ri = 1) by (apply Rinv_r; lra). assert (RI0 : / 16384 <= ri) by (apply Rinv_le_contravar; lra).
  set (ni := / IZR n) in *. assert (NI : IZR n * ni = 1) by (apply Rinv_r; lra). assert (NI0 : 0 < ni) by (apply Rinv_0_lt_compat; lra).
  assert (NI1 : ni <= 1) by (rewrite <- Rinv_1; apply Rinv_le_contravar; lra).
  set (x := G * ni). assert (X0 : 0 <= x) by (apply Rmult_le_pos; lra).
  assert (GX : G <= 131072 * x) by (unfold x; replace G with (IZR n * ni * G) at 1 by (rewrite NI; ring); replace (131072 * (G * ni)) with (131072 * ni * G) by ring; repeat apply Rmult_le_compat_r; lra).
  assert (XL : / 65536 <= x).
  { destruct (Z.eq_dec n 1) as [E|NE].
    - assert (ni = 1) by (unfold ni; rewrite E; apply Rinv_1). unfold x. rewrite H. lra.
    - assert (N3 : 2 <= IZR n) by (apply IZR_le; lia). assert (NR : IZR n <= 2 * (1 + / 262144) * (G * rate)) by lra.
      assert (X1 : 1 <= 2 * (1 + / 262144) * (x * rate)).
      { apply Rle_trans with (IZR n * ni); [lra|]. replace (2 * (1 + / 262144) * (x * rate)) with (2 * (1 + / 262144) * (G * rate) * ni) by (unfold x; ring). apply Rmult_le_compat_r; lra. }
      assert (X2 : ri <= 2 * (1 + / 262144) * x).
      { replace (2 * (1 + / 262144) * x) with (2 * (1 + / 262144) * (x * rate) * ri) by (replace (2 * (1 + / 262144) * (x * rate) * ri) with (2 * (1 + / 262144) * x * (rate * ri)) by ring; rewrite RI; ring).
        rewrite <- (Rmult_1_l ri) at 1. apply Rmult_le_compat_r; lra. }
      lra. }
  assert (GD : G * (r1 - r0) = G * r1 - G * r0) by ring.
  split.
  - assert (DN : G * (ni - / 16777216) <= G * (r1 - r0)) by (apply Rmult_le_compat_l; [exact G0|exact RG]).
    replace (G * (ni - / 16777216)) with (x - G * / 16777216) in DN by (unfold x; ring). rewrite GD in DN. unfold u53 in *. lra.
  - assert (DN : G * (r1 - r0) <= G * (ni + / 16777216)) by (apply Rmult_le_compat_l; [exact G0|exact RS]).
    replace (G * (ni + / 16777216)) with (x + G * / 16777216) in DN by (unfold x; ring). rewrite GD in DN.
    assert (GR : G * (1 - / 1048576) <= (IZR n + / 1048576) * ri).
    { replace (G * (1 - / 1048576)) with (G * (rate * (1 - / 1048576)) * ri) by (rewrite <- (Rmult_1_r (G * (1 - / 1048576))), <- RI; ring). apply Rmult_le_compat_r; lra. }
    assert (GN : x * (1 - / 1048576) <= (1 + / 1048576) * ri).
    { apply Rle_trans with ((IZR n + / 1048576) * ri * ni).
      - replace (x * (1 - / 1048576)) with (G * (1 - / 1048576) * ni) by (unfold x; ring). apply Rmult_le_compat_r; lra.
      - replace ((IZR n + / 1048576) * ri * ni) with (ri * (IZR n * ni) + / 1048576 * (ri * ni)) by ring. rewrite NI. assert (ri * ni <= ri) by nra. lra. }
    unfold u53 in *. unfold Rdiv. fold ri. lra.
Qed.

Lemma delta_ge : forall (a b : float64) c, is_finite a = true -> is_finite b = true -> c <= B2R b - B2R a -> 0 <= c -> B2R b - B2R a <= 1048576 ->
  c * (1 - / 1048576) - 2 * eta <= B2R (d2f (dsub b a) : float32).
Proof.
  intros a b c FA FB L1 L2 LC. unfold A. cbn [d2f dsub ieee]. pose proof eta_pos as T0. pose proof eta_small as T1.
  assert (SM : forall z, Rabs z <= 4194304 -> small64 z) by (intros z H; apply small_le64; eapply Rle_trans; [exact H|apply IZR_le; lia]).
  destruct (minus_fin 53 1024 _ _ b a FB FA) as [F1 E1]; [apply SM; rewrite Rabs_pos_eq; lra|].
  pose proof (r64_error (B2R b - B2R a)) as R1. rewrite (Rabs_pos_eq (B2R b - B2R a)) in R1 by lra. apply Rabs_le_inv in R1.
  assert (P1 : 0 <= r64 (B2R b - B2R a)) by (apply rnd_ge0; [reflexivity|lra]).
  rewrite <- E1 in *. set (m := Bminus mode_NE b a) in *. unfold u53 in R1.
  assert (SM32 : Rabs (B2R m) <= IZR (2 ^ 127)).
  { rewrite Rabs_pos_eq by exact P1. apply Rle_trans with 4194304; [lra|apply IZR_le; lia]. }
  destruct (d2f_fin m F1 (small_le32 _ SM32)) as [F2 E2]. rewrite E2.
  pose proof (r32_error (B2R m)) as R2. rewrite (Rabs_pos_eq (B2R m)) in R2 by exact P1. apply Rabs_le_inv in R2. unfold u24 in R2. lra.
Qed.

(** ** Tips *)
Definition boxed (pp : PositionParams) (K B : R) (t : TipState) : Prop :=
  fball (pp_spring pp) (pp_drag pp) K B (vx (t_pos t)) (vx (t_vel t)) /\ fball (pp_spring pp) (pp_drag pp) K B (vy (t_pos t)) (vy (t_vel t)) /\ vec_le (bpow radix2 60) (t_acc t).
Record springy (pp : PositionParams) (rate : R) : Prop := mkSpringy {
  sy_s : / 1048576 <= B2R (pp_spring pp : float32) <= 1048576;
  sy_d : is_finite (pp_drag pp : float32) = true /\ 16 <= B2R (pp_drag pp : float32);
  sy_m : 1 <= B2R (pp_spring pp : float32) * (B2R (pp_drag pp : float32) * B2R (pp_drag pp : float32)) <= 3;
  sy_rate : 1 <= rate <= 16384;
  sy_step : 17 / 4 <= rate * (B2R (pp_spring pp : float32) * B2R (pp_drag pp : float32))
}.
Lemma damped_springy : forall p : StrokeModelParams, @damped_params acosf p -> springy (p_position p) (B2R (sp_rate (p_sampling p) : float64)).
Proof.
  intros p [([[_ S1] [D1 _] R1 _ _] & _) M D R _ _ _]. constructor; [exact S1|split; [exact D1|exact D]|exact M|exact R1|exact R].
Qed.
Lemma boxed_mono : forall pp rate K L B t, springy pp rate -> 0 <= K <= L -> boxed pp K B t -> boxed pp L B t.
Proof.
  intros pp rate K L B t SY KL ((F1 & F2 & H1) & (G1 & G2 & H2) & H3). pose proof (sy_m _ _ SY) as M.
  split; [|split; [|exact H3]]; (split; [assumption|split; [assumption|]]); eapply ball_mono; try eassumption.
Qed.
Lemma springy_stride : forall pp rate (a b : float64), springy pp rate -> is_finite a = true -> is_finite b = true ->
  0 <= B2R b - B2R a <= 33 / 32 / rate -> stride (pp_spring pp) (pp_drag pp) (d2f (dsub b a)).
Proof.
  intros pp rate a b [SS [FD DD] MM RT SR] FA FB L. unfold A in *.
  set (ri := / rate). assert (RI : rate * ri = 1) by (apply Rinv_r; lra). assert (RI0 : / 16384 <= ri) by (apply Rinv_le_contravar; lra).
  assert (RI1 : ri <= 1) by (rewrite <- Rinv_1; apply Rinv_le_contravar; lra).
  assert (L' : 0 <= B2R b - B2R a <= 33 / 32 * ri) by exact L. destruct (delta_le acosf a b _ FA FB L' ltac:(lra)) as [[FD1 _] D1]. pose proof eta_pos as T0. pose proof eta_small as T1.
  assert (D2 : 0 <= B2R (d2f (dsub b a) : float32) <= 17 / 16 * ri) by (unfold A in *; lra). clear D1. unfold A in *. set (dl := d2f _) in *.
  constructor.
  - split; [exact FD1|exact FD].
  - exact SS.
  - lra.
  - exact MM.
  - split; [lra|]. set (sd := B2R (pp_spring pp : float32) * B2R (pp_drag pp : float32)) in *.
    replace sd with (ri * (rate * sd)) by (rewrite <- Rmult_assoc, (Rmult_comm ri), RI; ring).
    apply Rle_trans with (ri * (17 / 4)); [lra|apply Rmult_le_compat_l; lra].
Qed.
Lemma acc_small : forall B (x : float32), B60 <= B <= 2147483648 -> is_finite x = true /\ Rabs (B2R x) <= 33554432 * B -> fin_le (bpow radix2 60) x.
Proof.
  intros B x BB [F L]. split; [exact F|]. eapply Rle_trans; [exact L|]. apply Rle_trans with (33554432 * 2147483648); [apply Rmult_le_compat_l; lra|].
  change (bpow radix2 60) with 1152921504606846976. lra.
Qed.
Lemma tip_coords : forall (pp : PositionParams) t anchor (time : float64), let dl := d2f (dsub time (t_time t)) in
  vx (t_pos (tip_update pp t anchor time)) = pos1 (pp_spring pp) (pp_drag pp) dl (vx (t_pos t)) (vx (t_vel t)) (vx anchor) /\
  vx (t_vel (tip_update pp t anchor time)) = vel1 (pp_spring pp) (pp_drag pp) dl (vx (t_pos t)) (vx (t_vel t)) (vx anchor) /\
  vy (t_pos (tip_update pp t anchor time)) = pos1 (pp_spring pp) (pp_drag pp) dl (vy (t_pos t)) (vy (t_vel t)) (vy anchor) /\
  vy (t_vel (tip_update pp t anchor time)) = vel1 (pp_spring pp) (pp_drag pp) dl (vy (t_pos t)) (vy (t_vel t)) (vy anchor).
Proof. intros pp t anchor time dl. repeat split; reflexivity. Qed.
(** A step of at least 10 microseconds keeps the tip in its ball; any other costs 2^-16. *)
Lemma tip_long : forall pp rate B t anchor (time : float64), springy pp rate -> B60 <= B <= 2147483648 -> vec_le B anchor ->
  is_finite (t_time t : float64) = true -> is_finite time = true -> / 100000 <= B2R time - B2R (t_time t : float64) <= 33 / 32 / rate ->
  boxed pp 4 B t -> boxed pp 4 B (tip_update pp t anchor time).
Proof.
  intros pp rate B t anchor time SY BB [[A1 A2] [A3 A4]] F1 F2 GP (X & Y & _).
  pose proof (springy_stride pp rate (t_time t) time SY F1 F2 ltac:(lra)) as SR.
  assert (HD : / 10000 <= B2R (d2f (dsub time (t_time t)) : float32) * B2R (pp_drag pp : float32)).
  { destruct SY as [SS [FD DD] MM RT _]. assert (RI1 : / rate <= 1) by (rewrite <- Rinv_1; apply Rinv_le_contravar; lra).
    pose proof (delta_ge (t_time t) time (/ 100000) F1 F2 (proj1 GP) ltac:(lra) ltac:(lra)) as DG. pose proof eta_pos as T0. pose proof eta_small as T1.
    unfold A in *. apply Rle_trans with (/ 110000 * 16); [lra|apply Rmult_le_compat; lra]. }
  unfold A in *.
  destruct (fball_step _ _ _ _ _ _ 4 B SR A1 A2 BB ltac:(lra) X) as [C1 _]. destruct (fball_step _ _ _ _ _ _ 4 B SR A3 A4 BB ltac:(lra) Y) as [C2 _].
  pose proof (fball_long _ _ _ _ _ _ B SR A1 A2 BB HD X) as E1. pose proof (fball_long _ _ _ _ _ _ B SR A3 A4 BB HD Y) as E2.
  destruct (tip_coords pp t anchor time) as (H1 & H2 & H3 & H4). unfold boxed. unfold A in *. rewrite H1, H2, H3, H4.
  split; [exact E1|]. split; [exact E2|].
  split; [exact (acc_small B _ BB C1)|exact (acc_small B _ BB C2)].
Qed.
Lemma tip_any : forall pp rate K B t anchor (time : float64), springy pp rate -> B60 <= B <= 2147483648 -> 4 <= K <= 41 / 10 -> vec_le B anchor ->
  is_finite (t_time t : float64) = true -> is_finite time = true -> 0 <= B2R time - B2R (t_time t : float64) <= 33 / 32 / rate ->
  boxed pp K B t -> boxed pp (K + / 65536) B (tip_update pp t anchor time).
Proof.
  intros pp rate K B t anchor time SY BB KK [[A1 A2] [A3 A4]] F1 F2 GP (X & Y & _).
  pose proof (springy_stride pp rate (t_time t) time SY F1 F2 GP) as SR.
  unfold A in *.
  destruct (fball_step _ _ _ _ _ _ K B SR A1 A2 BB KK X) as [C1 _]. destruct (fball_step _ _ _ _ _ _ K B SR A3 A4 BB KK Y) as [C2 _].
  pose proof (fball_any _ _ _ _ _ _ K B SR A1 A2 BB KK X) as E1. pose proof (fball_any _ _ _ _ _ _ K B SR A3 A4 BB KK Y) as E2.
  destruct (tip_coords pp t anchor time) as (H1 & H2 & H3 & H4). unfold boxed. unfold A in *. rewrite H1, H2, H3, H4.
  split; [exact E1|]. split; [exact E2|].
  split; [exact (acc_small B _ BB C1)|exact (acc_small B _ BB C2)].
Qed.
(** Interpolation stays in the box, up to rounding. *)
Lemma interp1_in : forall (s e c : float32) M, B60 <= M <= 17179869184 -> fin_le M s -> fin_le M e -> unit32 c ->
  fin_le (M * (1 + / 1048576)) (Bplus mode_NE s (Bmult mode_NE c (Bminus mode_NE e s))).
Proof.
  intros s e c M MM [FS BS] [FE BE] (FC & C0 & C1). unfold B60 in MM.
  assert (U : u24 = / 16777216) by reflexivity. pose proof eta_pos as T0. pose proof eta_tiny as T1.
  assert (BIG : big = 85070591730234615865843651857942052864) by reflexivity.
  assert (ER : eta <= / 1000 * (u24 * M)) by (rewrite U; lra). rewrite U in ER.
  assert (M1 : Rabs (B2R e - B2R s) <= 2 * M) by (unfold Rminus; eapply Rle_trans; [apply Rabs_triang|]; rewrite Rabs_Ropp; lra).
  pose proof (appr_minus e s _ _ 0 0 _ (appr_exact e FE) (appr_exact s FS) M1) as A1.
  assert (A1' : appr (Bminus mode_NE e s) (B2R e - B2R s) (3 * u24 * M)) by (eapply appr_le; [apply A1|]; rewrite ?BIG, ?U; lra). clear A1.
  pose proof (appr_scale c _ _ _ _ FC C0 A1' M1) as A2. set (k := B2R c) in *.
  assert (K1 : k * (3 * u24 * M) <= 3 * u24 * M) by (rewrite U; nra). assert (K2 : k * (2 * M) <= 2 * M) by nra. assert (K3 : k * (2 * M + 3 * u24 * M) <= 3 * M) by (rewrite U; nra).
  assert (A2' : appr (Bmult mode_NE c (Bminus mode_NE e s)) (k * (B2R e - B2R s)) (6 * u24 * M)) by (eapply appr_le; [apply A2|]; rewrite ?BIG, ?U in *; lra). clear A2.
  assert (M2 : Rabs (B2R s + k * (B2R e - B2R s)) <= M).
  { replace (B2R s + k * (B2R e - B2R s)) with ((1 - k) * B2R s + k * B2R e) by ring. apply Rabs_le_inv in BS, BE. apply Rabs_le. nra. }
  pose proof (appr_plus s _ _ _ _ _ _ (appr_exact s FS) A2' M2) as A3.
  assert (A3' : appr (Bplus mode_NE s (Bmult mode_NE c (Bminus mode_NE e s))) (B2R s + k * (B2R e - B2R s)) (8 * u24 * M)) by (eapply appr_le; [apply A3|]; rewrite ?BIG, ?U in *; lra).
  split; [apply A3'|]. eapply Rle_trans; [eapply appr_abs; [exact A3'|exact M2]|]. rewrite U. lra.
Qed.
Lemma interp_in : forall v w (r : float32) M, B60 <= M <= 17179869184 -> vec_le M v -> vec_le M w -> is_nan r = false -> vec_le (M * (1 + / 1048576)) (interp_v v w r).
Proof.
  intros v w r M MM [V1 V2] [W1 W2] N. pose proof (clamp_unit acosf r N) as U.
  split; [exact (interp1_in _ _ _ M MM V1 W1 U)|exact (interp1_in _ _ _ M MM V2 W2 U)].
Qed.

(** ** The tips of a segment and of the end of the stroke *)
Lemma path_boxed : forall (pp : PositionParams) rate B a (t0 : float64) b (t1 : float64) n, springy pp rate -> fine_span t0 t1 rate n -> B60 <= B <= 2147483648 ->
  (forall r : float32, is_nan r = false -> vec_le B (interp_v a b r)) ->
  forall k j s sf out, (Z.of_nat (j + k) <= n)%Z -> boxed pp 4 B s -> is_finite (t_time s : float64) = true ->
  B2R (t_time s : float64) = B2R (interp_t t0 t1 (ratio n j) : float64) ->
  path_loop pp s a t0 b t1 n (Z.of_nat (S j)) k = (sf, out) -> boxed pp 4 B sf /\ Forall (boxed pp 4 B) out.
Proof.
  intros pp rate B a t0 b t1 n SY FS BB IV. induction k as [|k IH]; intros j s sf out J BX FT ET H; cbn [path_loop] in H.
  - injection H as <- <-. split; [exact BX|constructor].
  - replace (Z.of_nat (S j) + 1)%Z with (Z.of_nat (S (S j))) in H by lia.
    change (fdiv (fofZ (Z.of_nat (S j))) (fofZ n)) with (ratio n (S j)) in H.
    set (s1 := tip_update pp s _ _) in H. destruct (path_loop _ s1 _ _ _ _ _ _ k) as [sf' o] eqn:E. injection H as <- <-.
    pose proof (fs_span _ _ _ _ FS) as SP. assert (N : (1 <= n < INT_MAX)%Z) by (destruct SP; unfold INT_MAX; lia).
    destruct (ratio_fin n (S j) ltac:(lia) ltac:(lia)) as (U & _).
    assert (NN : is_nan (ratio n (S j)) = false) by (destruct U as [U _]; destruct (ratio n (S j)); try discriminate U; reflexivity).
    pose proof SP as [[F0 F1] BT OR (g & FG & EG) NL RT ST].
    destruct (interp_t_fin acosf t0 t1 g _ F0 F1 OR FG EG U) as (F2 & _ & _).
    assert (L1 : boxed pp 4 B s1).
    { apply (tip_long pp rate); [exact SY|exact BB|exact (IV _ NN)|exact FT|exact F2| |exact BX]. rewrite ET. apply (fine_gap t0 t1 rate n j FS). lia. }
    destruct (IH (S j) s1 sf' o) as [K1 K2]; [lia|exact L1|exact F2|reflexivity|exact E|].
    split; [exact K1|]. constructor; [exact L1|exact K2].
Qed.
Lemma along_boxed : forall (pp : PositionParams) rate B s a (t0 : float64) b (t1 : float64) n sf out, springy pp rate -> ((1 <= n)%Z -> fine_span t0 t1 rate n) -> B60 <= B <= 2147483648 ->
  (forall r : float32, is_nan r = false -> vec_le B (interp_v a b r)) -> boxed pp 4 B s -> is_finite (t_time s : float64) = true -> B2R (t_time s : float64) = B2R t0 ->
  update_along_path pp s a t0 b t1 n = Ret (sf, out) -> boxed pp 4 B sf /\ Forall (boxed pp 4 B) out.
Proof.
  intros pp rate B s a t0 b t1 n sf out SY FS BB IV BX FT ET H.
  unfold update_along_path in H. destruct (Z.leb_spec INT_MAX n); [discriminate H|]. apply ret_inj in H.
  destruct (Z_le_gt_dec n 0) as [NZ|NZ].
  { replace (Z.to_nat n) with 0%nat in H by lia. cbn [path_loop] in H. injection H as <- <-. split; [exact BX|constructor]. }
  specialize (FS ltac:(lia)).
  eapply (path_boxed pp rate B a t0 b t1 n SY FS BB IV (Z.to_nat n) 0 s sf out); [lia|exact BX|exact FT| |exact H].
  rewrite ET. destruct FS as [[[F0 F1] BT OR (g & FG & EG) NL RT ST] _ _ _]. destruct (ratio_fin n 0 ltac:(lia) ltac:(lia)) as (U & _).
  destruct (interp_t_fin acosf t0 t1 g _ F0 F1 OR FG EG U) as (_ & E & _). unfold A. rewrite E. rewrite ratio_0 by lia. rewrite Rmult_0_r, rnd_0, Rplus_0_r. symmetry. apply rnd_id. apply fmt_B2R.
Qed.
Lemma end_boxed : forall (pp : PositionParams) rate B anchor (stop : float32), springy pp rate -> B60 <= B <= 2147483648 -> vec_le B anchor ->
  forall k s (delta : float64) K sf out, 4 <= K -> K + INR k / 65536 <= 41 / 10 -> boxed pp K B s -> is_finite (t_time s : float64) = true ->
  Rabs (B2R (t_time s : float64)) <= 4294967296 - 4 * INR k -> is_finite delta = true -> 0 <= B2R delta <= 129 / 128 / rate ->
  model_end_of_stroke pp s anchor delta k stop = (sf, out) ->
  boxed pp (K + INR k / 65536) B sf /\ Forall (boxed pp (K + INR k / 65536) B) out /\
  within (bpow radix2 32) (t_time sf) /\ Forall (fun t : TipState => within (bpow radix2 32) (t_time t)) out.
Proof.
  intros pp rate B anchor stop SY BB BA. induction k as [|k IH]; intros s delta K sf out K4 KU BX FT BT FD BD H; cbn [model_end_of_stroke] in H.
  - injection H as <- <-. cbn [INR] in *. replace (K + 0 / 65536) with K by field. split; [exact BX|]. split; [constructor|]. split; [|constructor]. split; [exact FT|].
    change (bpow radix2 32) with 4294967296. unfold A in *. lra.
  - unfold A in *. set (cand := tip_update pp s anchor _) in H. rewrite S_INR in *. assert (K0 : 0 <= INR k) by apply pos_INR.
    pose proof (sy_rate _ _ SY) as RT. set (ri := / rate) in *. assert (RI0 : / 16384 <= ri) by (apply Rinv_le_contravar; lra).
    assert (RI1 : ri <= 1) by (rewrite <- Rinv_1; apply Rinv_le_contravar; lra). assert (BD' : 0 <= B2R delta <= 129 / 128 * ri) by exact BD.
    pose proof eta_pos as T0. pose proof eta_small as T1.
    assert (TS : Rabs (B2R (t_time s : float64) + B2R delta) <= 4294967296).
    { eapply Rle_trans; [apply Rabs_triang|]. rewrite (Rabs_pos_eq (B2R delta)) by lra. lra. }
    destruct (plus_fin 53 1024 _ _ (t_time s : float64) delta FT FD) as [F1 E1].
    { apply small_le64. eapply Rle_trans; [exact TS|]. apply IZR_le. lia. }
    pose proof (r64_error (B2R (t_time s : float64) + B2R delta)) as RE. rewrite <- E1 in RE. apply Rabs_le_inv in RE.
    assert (UP : B2R (t_time s : float64) <= B2R (Bplus mode_NE (t_time s : float64) delta)) by (rewrite E1; apply rnd_ge_fmt; [reflexivity|apply fmt_B2R|lra]).
    assert (TC : t_time cand = Bplus mode_NE (t_time s : float64) delta) by reflexivity. unfold u53 in RE.
    assert (GAP : 0 <= B2R (t_time cand : float64) - B2R (t_time s : float64) <= 33 / 32 * ri) by (rewrite TC; split; lra).
    assert (FC : is_finite (t_time cand : float64) = true) by (rewrite TC; exact F1).
    assert (BC : Rabs (B2R (t_time cand : float64)) <= 4294967296 - 4 * INR k).
    { apply Rabs_le_inv in BT. apply Rabs_le. lra. }
    assert (LC : boxed pp (K + / 65536) B cand).
    { apply (tip_any pp rate); [exact SY|exact BB|lra|exact BA|exact FT|exact F1|exact GAP|exact BX]. }
    assert (WC : within (bpow radix2 32) (t_time cand)) by (split; [exact FC|]; change (bpow radix2 32) with 4294967296; lra).
    clearbody cand. clear TC F1 E1 RE UP TS GAP.
    assert (LC' : boxed pp (K + (INR k + 1) / 65536) B cand) by (eapply boxed_mono; [exact SY| |exact LC]; lra).
    destruct (fltb (distance _ _) _) in H; [|destruct (fltb _ f1) in H; [|destruct (fltb (distance _ _) _) in H]].
    + injection H as <- <-. split; [exact LC'|]. split; [constructor|]. split; [exact WC|constructor].
    + destruct (half_le acosf delta FD (proj1 BD)) as [FH BH].
      destruct (IH s _ K sf out K4 ltac:(lra) BX FT ltac:(lra) FH) with (2 := H) as (Q1 & Q2 & Q3 & Q4).
      { unfold Rdiv at 2. fold ri. split; [apply BH|]. eapply Rle_trans; [apply BH|apply BD']. }
      split; [eapply boxed_mono; [exact SY| |exact Q1]; lra|]. split; [|split; [exact Q3|exact Q4]].
      eapply Forall_impl; [|exact Q2]. intros t Q. eapply boxed_mono; [exact SY| |exact Q]. lra.
    + injection H as <- <-. split; [exact LC'|]. split; [constructor; [exact LC'|constructor]|]. split; [exact WC|constructor; [exact WC|constructor]].
    + destruct (model_end_of_stroke _ _ _ _ k _) as [sf' o] eqn:E. injection H as <- <-.
      destruct (IH cand delta (K + / 65536) sf' o ltac:(lra) ltac:(lra) LC FC BC FD BD E) as (K1 & K2 & K3 & K5).
      replace (K + (INR k + 1) / 65536) with (K + / 65536 + INR k / 65536) by field.
      split; [exact K1|]. split; [constructor; [eapply boxed_mono; [exact SY| |exact LC]; lra|exact K2]|]. split; [exact K3|constructor; assumption].
Qed.

(** ** Mitigation: the sum of the speeds saturates instead of overflowing *)
Local Notation paced := (Props_Finite.paced acosf).
Local Notation plain := (Props_Finite.plain acosf).
Local Notation gentle := (Props_Finite.gentle acosf).
Local Notation calm_tip := (Props_Finite.calm_tip acosf).
Local Notation finite_result := (Props_Finite.finite_result acosf).
Local Notation good_bounds := (Props_Finite.good_bounds acosf).
Definition P127 : R := bpow radix2 127.
Lemma sat_127 : r32 (P127 + bpow radix2 102) = P127.
Proof.
  set (x := binary_normalize 24 128 prec_gt_0_32 prec_lt_emax_32 mode_NE 1 127 false). set (y := binary_normalize 24 128 prec_gt_0_32 prec_lt_emax_32 mode_NE 1 102 false).
  assert (EX : is_finite x = true /\ B2R x = P127) by (split; [reflexivity|]; unfold P127; change (B2R x = IZR (2 ^ 127)); unfold x; cbn; unfold F2R; cbn; lra).
  assert (EY : is_finite y = true /\ B2R y = bpow radix2 102) by (split; [reflexivity|]; change (B2R y = IZR (2 ^ 102)); unfold y; cbn; unfold F2R; cbn; lra).
  destruct EX as [FX EX], EY as [FY EY].
  assert (SM : small32 (B2R x + B2R y)).
  { rewrite EX, EY. eapply small_fmt_bound with (b := bpow radix2 127 + bpow radix2 104); [reflexivity| | |].
    - replace (bpow radix2 127 + bpow radix2 104) with (IZR 8388609 * bpow radix2 104); [apply fmt_mult_pow; lia|]. rewrite (bpow_plus radix2 23 104 : bpow radix2 127 = _).
      change (bpow radix2 23) with 8388608. ring.
    - change (bpow radix2 127) with (IZR (2 ^ 127)). change (bpow radix2 104) with (IZR (2 ^ 104)). change (bpow radix2 128) with (IZR (2 ^ 128)). rewrite <- plus_IZR. apply IZR_lt. reflexivity.
    - unfold P127. pose proof (bpow_ge_0 radix2 127). pose proof (bpow_ge_0 radix2 102). rewrite Rabs_pos_eq by lra. apply Rplus_le_compat_l. apply bpow_le. lia. }
  destruct (plus_fin 24 128 _ _ x y FX FY SM) as [_ E]. rewrite EX, EY in E. rewrite <- E, <- EX. f_equal. apply B2SF_inj. vm_compute. reflexivity.
Qed.
Lemma sum_saturates : forall l (s0 : float32), paced l -> is_finite s0 = true -> 0 <= B2R s0 <= P127 ->
  is_finite (fold_left (fun sum s => fadd sum (ss_speed s)) l s0 : float32) = true /\
  0 <= B2R (fold_left (fun sum s => fadd sum (ss_speed s)) l s0 : float32) <= P127.
Proof.
  induction l as [|s l IH]; intros s0 P F0 B0; cbn [fold_left]; [auto|].
  destruct (Forall_inv P) as [FS BS]. pose proof (Forall_inv_tail P) as PT. unfold A in *.
  assert (LE : 0 <= r32 (B2R s0 + B2R (ss_speed s : float32)) <= P127).
  { split; [apply rnd_ge0; [reflexivity|lra]|]. rewrite <- sat_127. apply rnd_le; [reflexivity|lra]. }
  destruct (plus_fin 24 128 _ _ s0 (ss_speed s : float32) F0 FS) as [M1 M2].
  { unfold small. rewrite Rabs_pos_eq by apply LE. eapply Rle_lt_trans; [apply LE|]. apply bpow_lt. lia. }
  apply IH; [exact PT|exact M1|]. cbn [fadd ieee]. rewrite M2. exact LE.
Qed.
Lemma count_float : forall n, (1 <= n)%Z -> let c := binary_normalize 24 128 prec_gt_0_32 prec_lt_emax_32 mode_NE n 0 false in
  (is_finite c = true /\ 1 <= B2R c) \/ c = B754_infinity false.
Proof.
  intros n N c. pose proof (binary_normalize_correct 24 128 prec_gt_0_32 prec_lt_emax_32 mode_NE n 0 false) as H. fold c in H.
  assert (E : F2R (Float radix2 n 0) = IZR n) by (unfold F2R; cbn; ring). rewrite E in H. assert (N1 : 1 <= IZR n) by (apply IZR_le; exact N).
  cbv zeta in H. match type of H with if Rlt_bool ?a ?b then _ else _ => destruct (Rlt_bool a b) end.
  - left. destruct H as (H1 & H2 & _). split; [exact H2|]. rewrite H1. change (1 <= r32 (IZR n)).
    replace 1 with (r32 1); [apply rnd_le; [reflexivity|exact N1]|]. apply rnd_id. exact (fmt_bpow 24 128 0 eq_refl ltac:(lia)).
  - right. rewrite Rlt_bool_false in H by lra. destruct c as [|sc| |]; try discriminate H. injection H as ->. reflexivity.
Qed.
Lemma average_any : forall l, paced l -> l <> [] -> is_finite (average_speed l : float32) = true /\ 0 <= B2R (average_speed l : float32).
Proof.
  intros l P NE. unfold average_speed.
  destruct (sum_saturates l (@f0 (ieee acosf)) P eq_refl) as [K1 K2]; [unfold P127; pose proof (bpow_ge_0 radix2 127); cbn; lra|].
  set (sum := fold_left _ l f0) in *. clearbody sum. unfold A in *. cbn [fdiv fofZ ieee].
  destruct (count_float (Z.of_nat (List.length l))) as [[F L]|E]; [destruct l; [congruence|cbn [List.length]; lia]| |].
  - set (cnt := binary_normalize _ _ _ _ _ _ _ _) in *. clearbody cnt.
    assert (I1 : 0 < / B2R cnt <= 1) by (split; [apply Rinv_0_lt_compat; lra|rewrite <- Rinv_1; apply Rinv_le_contravar; lra]).
    assert (LB : Rabs (B2R (sum : float32) / B2R cnt) <= bpow radix2 127).
    { unfold Rdiv. rewrite Rabs_pos_eq; [|apply Rmult_le_pos; [apply K2|lra]].
      apply Rle_trans with (B2R (sum : float32) * 1); [apply Rmult_le_compat_l; [apply K2|lra]|]. fold P127. lra. }
    destruct (div_fin 24 128 _ _ (sum : float32) cnt K1) as [D1 D2]; [lra| |].
    { eapply small_fmt_bound; [reflexivity|apply fmt_bpow; [reflexivity|]|apply bpow_lt|exact LB]; lia. }
    split; [exact D1|]. rewrite D2. apply rnd_ge0; [reflexivity|]. apply Rmult_le_pos; [apply K2|lra].
  - rewrite E. clear - K1. destruct sum; try discriminate K1; split; try reflexivity; cbn; lra.
Qed.
Lemma value_any : forall p l, (lp_enabled p = true -> good_bounds p) -> paced l -> is_nan (loop_value p l : float32) = false.
Proof.
  intros p l FB P. unfold loop_value. destruct l as [|s l]; [reflexivity|]. destruct (lp_enabled p) eqn:EN; cbn [negb]; [|reflexivity].
  destruct (FB eq_refl) as ((F1 & F2 & U1 & U2) & PL). pose proof (average_any (s :: l) P ltac:(discriminate)) as [FA PA].
  set (av := average_speed (s :: l)) in *. clearbody av.
  assert (N : is_nan (clamp01 (inverse_lerp (lp_speed_lower p) (lp_speed_upper p) av) : float32) = false).
  { assert (K : is_nan (inverse_lerp (lp_speed_lower p) (lp_speed_upper p) av : float32) = false).
    { unfold inverse_lerp. destruct (feqb _ f0) eqn:Q; [reflexivity|]. unfold A in *. cbn [fdiv fsub ieee feqb] in *.
      pose proof (minus_not_nan _ _ F2 F1) as M1.
      assert (M2 : is_finite (Bminus mode_NE (av : float32) (lp_speed_lower p : float32)) = true)
        by (apply minus_fin_pos; assumption).
      destruct (is_nan (Bdiv mode_NE _ _)) eqn:DN; [|reflexivity]. exfalso. apply div_not_nan in DN; [|exact M2|exact M1].
      revert Q DN M1. generalize (Bminus mode_NE (lp_speed_upper p : float32) (lp_speed_lower p : float32)). intros x Q [s0 ->] _. discriminate Q. }
    pose proof (clamp_unit acosf _ K) as [FC _]. unfold A in *. destruct (clamp01 _); try reflexivity; discriminate FC. }
  pose proof (interp_unit acosf _ _ _ U1 U2 N) as [FI _]. unfold A in *. destruct (interp_f _ _ _); try reflexivity; discriminate FI.
Qed.
Lemma loop_any : forall lm v (t : float64) lm' x, paced (l_samples lm) -> vec_le (bpow radix2 100) v ->
  (lp_enabled (l_params lm) = true -> good_bounds (l_params lm)) ->
  loop_update lm v t = (lm', x) -> paced (l_samples lm') /\ is_nan (x : float32) = false /\ l_params lm' = l_params lm.
Proof.
  intros lm v t lm' x P V FB H. unfold loop_update in H. destruct (lp_enabled (l_params lm)) eqn:EN; cbn [negb] in H.
  - assert (K : paced (loop_trim (l_params lm) t (l_samples lm ++ [mkSpeed (magnitude v) t]))).
    { destruct (loop_trim_suffix acosf (l_params lm) t (l_samples lm ++ [mkSpeed (magnitude v) t])) as [pre E].
      assert (S2 : paced (l_samples lm ++ [mkSpeed (magnitude v) t])).
      { apply Forall_app. split; [exact P|]. constructor; [|constructor]. apply magnitude_slow. exact V. }
      rewrite E in S2. apply Forall_app in S2. apply S2. }
    injection H as <- <-. cbn [l_samples l_params]. split; [exact K|]. split; [|reflexivity].
    unfold loop_get. cbn [l_params l_samples]. apply value_any; [intros _; apply FB; reflexivity|exact K].
  - injection H as <- <-. split; [exact P|]. split; reflexivity.
Qed.

(** ** The results *)
Lemma interp_result_pos : forall fuel a b (x : float32) r, interp_result fuel a b x = Ret r -> r_pos r = interp_v (r_pos a) (r_pos b) x.
Proof. intros fuel a b x r H. unfold interp_result in H. bind_inv H. apply ret_inj in H. subst r. reflexivity. Qed.
Lemma query_in : forall fuel b sm tip n r, B60 <= b <= 1073741824 -> Forall (fun q => vec_le b (r_pos q)) (s_raw (sm_state sm)) ->
  stylus_query fuel sm tip n = Ret r -> vec_le (33 / 32 * b) (r_pos r).
Proof.
  intros fuel b sm tip n r BB F H. rewrite Forall_forall in F. assert (B0 : 0 < b) by (unfold B60 in BB; lra).
  destruct (query_eq fuel sm tip n) as [[_ E]|(_ & o & E & O)].
  { rewrite E in H. apply ret_inj in H. subst r. split; (split; [reflexivity|]); cbn; rewrite Rabs_R0; lra. }
  rewrite E in H. destruct o as [x| |] eqn:EO; cbn [obind] in H; try discriminate H. apply ret_inj in H. subst r. cbn [with_flags r_pos].
  destruct O as [(p & QP & E0)|(_ & r1 & R1 & E0)]; symmetry in E0.
  - pose proof (projection_ratio acosf _ _ _ _ QP) as N. apply query_projection_in in QP. destruct QP as [Q1 Q2].
    pose proof (interp_result_pos _ _ _ _ _ E0) as EP. unfold A in *. rewrite EP. eapply vec_le_mono; [apply (interp_in _ _ _ b); [lra|exact (F _ Q1)|exact (F _ Q2)|exact N]|]. lra.
  - apply ret_inj in E0. subst x. eapply vec_le_mono; [exact (F _ R1)|lra].
Qed.
Definition boxed_result (b : R) (r : Result) : Prop := finite_result r /\ vec_le (17 / 4 * b) (r_pos r).
Lemma stylus_loop_boxed : forall fuel b sm, B60 <= b <= 1073741824 -> Forall plain (s_raw (sm_state sm)) -> Forall (fun q => vec_le b (r_pos q)) (s_raw (sm_state sm)) ->
  forall tips lm (v : float32) pt lm' out, Forall calm_tip tips -> Forall (fun t => vec_le (83 / 20 * b) (t_pos t)) tips -> paced (l_samples lm) ->
  (lp_enabled (l_params lm) = true -> good_bounds (l_params lm)) -> is_nan v = false ->
  model_stylus_loop fuel tips sm lm v pt = Ret (lm', out) -> Forall (boxed_result b) out /\ paced (l_samples lm').
Proof.
  intros fuel b sm BB F FP. induction tips as [|tip rest IH]; intros lm v pt lm' out T TP P FB N H; cbn [model_stylus_loop List.length] in H |- *.
  - apply ret_inj in H. injection H as <- <-. split; [constructor|exact P].
  - pose proof (Forall_inv T) as T1. pose proof (Forall_inv_tail T) as T4. pose proof (Forall_inv TP) as P1. pose proof (Forall_inv_tail TP) as P4. bind_inv H. bind_inv H. rename x into r0, x0 into r.
    destruct (loop_update lm (r_vel r) (t_time tip)) as [l1 v1] eqn:LU. bind_inv H. destruct x as [l2 o2]. apply ret_inj in H. injection H as <- <-.
    destruct (query_gentle acosf _ _ _ _ _ F E) as [G0 TM]. pose proof (query_in _ _ _ _ _ _ BB FP E) as GP. assert (B0 : 0 < b) by (unfold B60 in BB; lra).
    pose proof (interp_bounded acosf _ _ _ _ _ 110 98 120 102 ltac:(lia) ltac:(lia) ltac:(lia) ltac:(lia) G0 (tip_gentle acosf tip r0 T1 G0) N E0) as M.
    assert (FT : is_finite (r_time r : float64) = true).
    { pose proof (interp_result_time acosf _ _ _ _ _ E0) as E2. unfold A in *. rewrite E2. cbn [make_result r_time]. apply (time_fin acosf); [exact TM|apply T1|exact N]. }
    assert (PT : vec_le (17 / 4 * b) (r_pos r)).
    { pose proof (interp_result_pos _ _ _ _ _ E0) as EP. unfold A in *. rewrite EP. cbn [make_result r_pos]. eapply vec_le_mono; [apply (interp_in _ _ _ (83 / 20 * b)); [lra| |exact P1|exact N]|lra].
      eapply vec_le_mono; [exact GP|lra]. }
    destruct (loop_any lm (r_vel r) (t_time tip) l1 v1 P (proj1 (proj2 M)) FB LU) as (L1 & L2 & L3).
    destruct (IH l1 v1 (t_time tip) l2 o2 T4 P4 L1) as (K1 & K2); [rewrite L3; exact FB|exact L2|exact E1|].
    split; [constructor; [split; [split; [exact M|exact FT]|exact PT]|exact K1]|exact K2].
Qed.
Lemma stylus_boxed : forall fuel b sm tips lm pt lm' out, B60 <= b <= 1073741824 -> Forall plain (s_raw (sm_state sm)) -> Forall (fun q => vec_le b (r_pos q)) (s_raw (sm_state sm)) ->
  Forall calm_tip tips -> Forall (fun t => vec_le (83 / 20 * b) (t_pos t)) tips -> paced (l_samples lm) ->
  (lp_enabled (l_params lm) = true -> good_bounds (l_params lm)) ->
  model_stylus fuel tips sm lm pt = Ret (lm', out) -> Forall (boxed_result b) out /\ paced (l_samples lm').
Proof.
  intros fuel b sm tips lm pt lm' out BB F FP T TP P FB H. unfold model_stylus in H.
  eapply stylus_loop_boxed; [exact BB|exact F|exact FP|exact T|exact TP|exact P|exact FB| |exact H]. apply value_any; [exact FB|exact P].
Qed.

(** ** The number of steps to an input *)
Lemma rate_finite : forall p : StrokeModelParams, validate_params p = OkStatus -> is_finite (sp_rate (p_sampling p) : float64) = true.
Proof. intros p V. destruct (validate_params_parts p V) as (_ & _ & VS & _). unfold validate_sampling in VS. apply and_then_ok in VS. destruct VS as [VR _]. apply gt0_d_F in VR. apply VR. Qed.
Lemma steps_fine : forall (p : StrokeModelParams) tip (a b : Input) n, validate_params p = OkStatus -> @damped_params acosf p -> @moderate_input acosf a -> @moderate_input acosf b ->
  dltb (i_time b) (i_time a) = false -> @tick_gap acosf a b -> @step_apart acosf a b -> number_of_steps tip a b (p_sampling p) (p_position p) = Ret (IOk n) ->
  (1 <= n)%Z -> fine_span (i_time a) (i_time b) (B2R (sp_rate (p_sampling p) : float64)) n.
Proof.
  intros p tip a b n V DP MA MB DL TG SA NS N1. pose proof (rate_finite p V) as FR.
  destruct (steps_span acosf p tip a b n V (dm_steady p DP) MA MB DL TG NS) as [SP _].
  destruct DP as [_ _ _ _ MO OFF _].
  assert (IM : (sp_max_outputs (p_sampling p) < INT_MAX)%Z) by (unfold INT_MAX, A in *; lia).
  pose proof (steps_exact _ _ _ _ _ _ NS IM OFF) as EX. pose proof (steps_rate acosf _ _ _ _ _ _ NS IM) as [NM _].
  destruct SP as [[FA FB] [LA LB] OR (g & FG & EG) NL RT ST]. pose proof NM as NM'. unfold A in *. cbn [dmul f2d d2f dsub ieee] in EX.
  assert (N2 : (n <= 131072)%Z) by lia. clear NM NM' MO OFF IM NS MA MB V TG. unfold step_apart in SA.
  set (ta := i_time a) in *. set (tb := i_time b) in *. set (rt := sp_rate (p_sampling p)) in *. clearbody ta tb rt. clear p a b tip DL. change float64 in ta, tb, rt.
  pose proof eta_pos as T0. pose proof eta_small as T1.
  assert (D0 : 0 <= B2R tb - B2R ta <= 4294967296) by (apply Rabs_le_inv in LA, LB; lra).
  destruct (minus_fin 53 1024 _ _ tb ta FB FA) as [M1 M2]; [apply small_bound with (x := g); [reflexivity|]; rewrite EG; apply Rle_refl|].
  assert (M2' : B2R (Bminus mode_NE tb ta) = B2R tb - B2R ta) by (rewrite M2, <- EG; apply rnd_id; apply fmt_B2R). clear M2.
  set (df := Bminus mode_NE tb ta) in *. set (d := B2R tb - B2R ta) in *.
  destruct (d2f_fin df M1) as [M3 M4].
  { apply small_le32. rewrite M2', Rabs_pos_eq by lra. apply Rle_trans with 4294967296; [lra|apply IZR_le; lia]. }
  destruct (f2d_fin _ M3) as [M5 M6]. rewrite M4, M2' in M6. set (fd := b32_to_b64 (b64_to_b32 df)) in *.
  pose proof (r32_error d) as E1. rewrite (Rabs_pos_eq d) in E1 by lra. apply Rabs_le_inv in E1.
  assert (P1 : 0 <= r32 d) by (apply rnd_ge0; [reflexivity|lra]). unfold u24 in E1.
  assert (B2 : 0 <= r32 d * B2R rt <= 8589934592 * 16384) by (split; [apply Rmult_le_pos; lra|apply Rmult_le_compat; lra]).
  destruct (mult_fin 53 1024 _ _ fd rt M5 FR) as [M7 M8].
  { apply small_le64. rewrite M6, Rabs_pos_eq by lra. apply Rle_trans with (8589934592 * 16384); [lra|rewrite <- mult_IZR; apply IZR_le; lia]. }
  specialize (EX M7). rewrite M8, M6 in EX.
  pose proof (r64_error (r32 d * B2R rt)) as E2. rewrite (Rabs_pos_eq (r32 d * B2R rt)) in E2 by lra. apply Rabs_le_inv in E2. unfold u53 in E2.
  pose proof (Zceil_lb (r64 (r32 d * B2R rt))) as CB. rewrite <- EX in CB.
  assert (HI : r32 d * B2R rt <= (d * (1 + / 16777216) + eta) * B2R rt) by (apply Rmult_le_compat_r; lra).
  assert (HE : eta * B2R rt <= eta * 16384) by (apply Rmult_le_compat_l; lra).
  assert (DR : 0 <= d * B2R rt) by (apply Rmult_le_pos; lra).
  assert (MAIN : IZR n <= d * (B2R rt * (1 + / 1048576)) + 1 + / 1048576).
  { replace ((d * (1 + / 16777216) + eta) * B2R rt) with (d * B2R rt + d * B2R rt * / 16777216 + eta * B2R rt) in HI by ring.
    replace (d * (B2R rt * (1 + / 1048576))) with (d * B2R rt + d * B2R rt * / 1048576) by ring. lra. }
  constructor.
  - constructor; try (split; assumption); try assumption. exists g. auto.
  - exact N2.
  - destruct SA as [SA|SA]; [|exact SA]. exfalso. assert (Z : d = 0) by (unfold d; rewrite SA; ring).
    rewrite Z, rnd_0, Rmult_0_l, rnd_0, Zceil_IZR in EX. lia.
  - exact MAIN.
Qed.
Lemma period_box : forall rate : float64, is_finite rate = true -> 1 <= B2R rate <= 16384 ->
  let d := ddiv (dofZ 1) rate in is_finite (d : float64) = true /\ 0 <= B2R (d : float64) <= 129 / 128 / B2R rate.
Proof.
  intros rate F B. unfold A. cbn [ddiv dofZ ieee]. destruct (ofZ_64 1 eq_refl) as [F1 E1]. set (one := binary_normalize _ _ _ _ _ 1 0 false) in *.
  set (ri := / B2R rate) in *. assert (RI0 : / 16384 <= ri) by (apply Rinv_le_contravar; lra).
  assert (RI1 : ri <= 1) by (rewrite <- Rinv_1; apply Rinv_le_contravar; lra).
  assert (E : B2R one / B2R rate = ri) by (rewrite E1; unfold Rdiv; fold ri; ring).
  destruct (div_fin 53 1024 _ _ one rate F1 ltac:(lra)) as [F2 E2].
  { rewrite E. apply small_le64. rewrite Rabs_pos_eq by lra. apply Rle_trans with 1; [lra|apply IZR_le; lia]. }
  split; [exact F2|]. rewrite E2, E. unfold Rdiv. fold ri. pose proof (r64_error ri) as RE. rewrite (Rabs_pos_eq ri) in RE by lra.
  apply Rabs_le_inv in RE. pose proof eta_pos as T0. pose proof eta_small as T1. unfold u53 in RE.
  split; [apply rnd_ge0; [reflexivity|lra]|lra].
Qed.

(** ** From the ball to the box *)
Lemma boxed_calm : forall pp rate K b t, springy pp rate -> B60 <= b <= 1073741824 -> 4 <= K <= 257 / 64 -> boxed pp K (33 / 32 * b) t -> within (bpow radix2 32) (t_time t) ->
  calm_tip t /\ vec_le (83 / 20 * b) (t_pos t).
Proof.
  intros pp rate K b t [SS [FD DD] MM RT SR] BB KK (X & Y & AC) W. unfold B60 in BB.
  assert (KB : K * (33 / 32 * b) <= 257 / 64 * (33 / 32 * b)) by (apply Rmult_le_compat_r; lra).
  set (D := B2R (pp_drag pp : float32)) in *. assert (DU : D <= 2048).
  { destruct (Rle_lt_dec D 2048) as [H|H]; [exact H|]. exfalso. assert (2048 * 2048 <= D * D) by (apply Rmult_le_compat; lra).
    assert (/ 1048576 * (2048 * 2048) <= B2R (pp_spring pp : float32) * (D * D)) by (apply Rmult_le_compat; lra). unfold A in *. lra. }
  assert (VB : D * (9 / 8 * (K * (33 / 32 * b))) <= 2048 * (9 / 8 * (257 / 64 * (33 / 32 * b)))) by (apply Rmult_le_compat; try lra; repeat apply Rmult_le_pos; lra).
  assert (D0 : 0 < D) by lra. assert (K0 : 0 <= K) by lra. assert (B0 : 0 <= 33 / 32 * b) by lra.
  destruct (fball_bounds _ _ _ _ _ _ MM D0 K0 B0 X) as [X1 X2]. destruct (fball_bounds _ _ _ _ _ _ MM D0 K0 B0 Y) as [Y1 Y2].
  fold D in X2, Y2. destruct X as (XF & XV & _), Y as (YF & YV & _).
  assert (P : vec_le (83 / 20 * b) (t_pos t)) by (split; (split; [assumption|]); unfold A in *; lra).
  assert (V : vec_le (bpow radix2 50) (t_vel t)) by (change (bpow radix2 50) with 1125899906842624; split; (split; [assumption|]); unfold A in *; lra).
  split; [|exact P]. split; [eapply vec_le_mono; [exact P|]; apply Rle_trans with (bpow radix2 40); [change (bpow radix2 40) with 1099511627776; lra|apply bpow_le; lia]|].
  split; [exact (vec_le_pow acosf 50 98 _ ltac:(lia) V)|]. split; [exact (vec_le_pow acosf 60 120 _ ltac:(lia) AC)|exact W].
Qed.
Lemma start_boxed : forall pp rate b (i : Input), springy pp rate -> vec_le b (i_pos i) -> 0 <= b -> boxed pp 4 (33 / 32 * b) (mkTip (i_pos i) vzero vzero (i_time i)).
Proof.
  intros pp rate b i [SS [FD DD] MM RT SR] [[F1 L1] [F2 L2]] B0.
  set (m := B2R (pp_spring pp : float32) * (B2R (pp_drag pp : float32) * B2R (pp_drag pp : float32))) in *.
  assert (Q : forall x, Rabs x <= b -> ball m 4 (33 / 32 * b) x (0 / B2R (pp_drag pp : float32))).
  { intros x L. replace (0 / B2R (pp_drag pp : float32)) with 0 by (unfold Rdiv; ring). unfold ball, form. replace (x * x + 4 / 5 * m * (x * 0 + 0 * 0)) with (x * x) by ring.
    assert (X : x * x <= b * b) by (rewrite <- (Rabs_pos_eq (x * x)) by apply Rle_0_sqr; rewrite Rabs_mult; apply Rmult_le_compat; try apply Rabs_pos; exact L).
    assert (0 <= b * b) by (apply Rmult_le_pos; exact B0).
    replace (4 * 4 * ((1 - m / 5) * (33 / 32 * b * (33 / 32 * b)))) with (16 * (33 / 32 * (33 / 32)) * (1 - m / 5) * (b * b)) by ring.
    apply Rle_trans with (1 * (b * b)); [lra|]. apply Rmult_le_compat_r; [assumption|]. lra. }
  split; [split; [exact F1|split; [reflexivity|exact (Q _ L1)]]|]. split; [split; [exact F2|split; [reflexivity|exact (Q _ L2)]]|]. apply vzero_le.
Qed.
Lemma anchors_in : forall b a c, B60 <= b <= 1073741824 -> vec_le b a -> vec_le b c -> forall r : float32, is_nan r = false -> vec_le (33 / 32 * b) (interp_v a c r).
Proof. intros b a c BB VA VC r N. eapply vec_le_mono; [apply interp_in; [|exact VA|exact VC|exact N]; lra|]. unfold B60 in BB. lra. Qed.

(** The segment from the last input to a new one. *)
Lemma segment_boxed : forall (p : StrokeModelParams) b tip0 (i j : Input) ca cb n tip tips, validate_params p = OkStatus -> @damped_params acosf p -> B60 <= b <= 1073741824 ->
  @moderate_input acosf i -> @moderate_input acosf j -> dltb (i_time j) (i_time i) = false -> @tick_gap acosf i j -> @step_apart acosf i j ->
  number_of_steps tip0 i j (p_sampling p) (p_position p) = Ret (IOk n) -> vec_le b ca -> vec_le b cb ->
  boxed (p_position p) 4 (33 / 32 * b) tip0 -> is_finite (t_time tip0 : float64) = true -> B2R (t_time tip0 : float64) = B2R (i_time i : float64) ->
  update_along_path (p_position p) tip0 ca (i_time i) cb (i_time j) n = Ret (tip, tips) ->
  boxed (p_position p) 4 (33 / 32 * b) tip /\ is_finite (t_time tip : float64) = true /\ B2R (t_time tip : float64) = B2R (i_time j : float64) /\
  Forall calm_tip tips /\ Forall (fun t => vec_le (83 / 20 * b) (t_pos t)) tips.
Proof.
  intros p b tip0 i j ca cb n tip tips V DP BB MA MB DL TG SA NS VA VB BX FT ET UA.
  pose proof (damped_springy p DP) as SY. assert (BB' : B60 <= 33 / 32 * b <= 2147483648) by (unfold B60 in *; lra).
  destruct (steps_span acosf p tip0 i j n V (dm_steady p DP) MA MB DL TG NS) as [SN NZ].
  destruct (along_boxed _ _ _ _ _ _ _ _ _ _ _ SY (steps_fine p tip0 i j n V DP MA MB DL TG SA NS) BB' (anchors_in b ca cb BB VA VB) BX FT ET UA) as [K1 K2]. split; [exact K1|].
  destruct SN as [[F0 F1] [B0 B1] OR GP _ _ _]. destruct (path_timed acosf _ _ _ _ _ _ _ _ _ UA F0 F1 OR GP) as ((P1 & P2 & P3) & P4 & P5).
  assert (TM : Forall (fun t : TipState => within (bpow radix2 32) (t_time t)) tips).
  { apply Forall_forall. intros t IN. split; [exact (proj1 (Forall_forall _ _) P1 _ (in_map t_time _ _ IN))|].
    pose proof (proj1 (Forall_forall _ _) P3 _ (in_map B2R _ _ (in_map t_time _ _ IN))) as Q. cbv beta in Q. unfold A in *.
    apply Rabs_le_inv in B0, B1. assert (Rabs (B2R (t_time t : float64)) <= 2147483648) by (apply Rabs_le; lra).
    change (bpow radix2 32) with 4294967296. lra. }
  assert (TT : is_finite (t_time tip : float64) = true /\ B2R (t_time tip : float64) = B2R (i_time j : float64)).
  { destruct tips as [|t0 tl] eqn:TE.
    - rewrite P4. cbn [last]. split; [exact FT|]. rewrite ET. apply NZ. apply update_along_path_length in UA. cbn [List.length] in UA. lia.
    - rewrite <- TE in *. assert (NE : tips <> []) by (rewrite TE; discriminate). rewrite P4. split; [|exact (P5 NE)].
      assert (IN : In (last tips tip0) tips) by (destruct (exists_last NE) as (x & y & E); rewrite E, last_last; apply in_or_app; right; left; reflexivity).
      exact (proj1 (proj1 (Forall_forall _ _) TM _ IN)). }
  split; [apply TT|]. split; [apply TT|].
  assert (CT : forall t, In t tips -> calm_tip t /\ vec_le (83 / 20 * b) (t_pos t)).
  { intros t IN. apply (boxed_calm _ _ 4 b t SY BB ltac:(lra)); [exact (proj1 (Forall_forall _ _) K2 _ IN)|exact (proj1 (Forall_forall _ _) TM _ IN)]. }
  split; apply Forall_forall; intros t IN; apply (CT t IN).
Qed.
(** The end of the stroke, from a tip that follows it. *)
Lemma ending_boxed : forall (p : StrokeModelParams) b (tip1 : TipState) anchor tip2 tips2, validate_params p = OkStatus -> @damped_params acosf p -> B60 <= b <= 1073741824 -> vec_le b anchor ->
  boxed (p_position p) 4 (33 / 32 * b) tip1 -> is_finite (t_time tip1 : float64) = true -> Rabs (B2R (t_time tip1 : float64)) <= 2147483648 ->
  model_end_of_stroke (p_position p) tip1 anchor (ddiv (dofZ 1) (sp_rate (p_sampling p))) (Z.to_nat (sp_max_iter (p_sampling p))) (sp_stop (p_sampling p)) = (tip2, tips2) ->
  (calm_tip tip2 /\ vec_le (83 / 20 * b) (t_pos tip2)) /\ Forall calm_tip tips2 /\ Forall (fun t => vec_le (83 / 20 * b) (t_pos t)) tips2.
Proof.
  intros p b tip1 anchor tip2 tips2 V DP BB VA BX FT BT ME. destruct (valid_counts p V) as [VC _].
  pose proof (damped_springy p DP) as SY. pose proof (sy_rate _ _ SY) as RT. pose proof (rate_finite p V) as FR. assert (BB' : B60 <= 33 / 32 * b <= 2147483648) by (unfold B60 in *; lra).
  destruct (period_box (sp_rate (p_sampling p) : float64) FR RT) as [D1 D2].
  assert (K3 : 0 <= INR (Z.to_nat (sp_max_iter (p_sampling p))) <= 1000).
  { split; [apply pos_INR|]. rewrite INR_IZR_INZ. apply IZR_le. rewrite Z2Nat.id; [apply VC|]. apply Z.le_trans with 1%Z; [discriminate|apply VC]. }
  assert (VB : vec_le (33 / 32 * b) anchor) by (eapply vec_le_mono; [exact VA|unfold B60 in BB; lra]).
  set (k := INR (Z.to_nat (sp_max_iter (p_sampling p)))) in *.
  destruct (end_boxed (p_position p) _ _ anchor (sp_stop (p_sampling p)) SY BB' VB (Z.to_nat (sp_max_iter (p_sampling p))) tip1 _ 4 tip2 tips2 ltac:(lra) ltac:(fold k; lra) BX FT ltac:(fold k; lra) D1 D2 ME) as (E1 & E2 & E3 & E4).
  fold k in E1, E2.
  split; [exact (boxed_calm _ _ (4 + k / 65536) b tip2 SY BB ltac:(lra) E1 E3)|].
  assert (CT : forall t, In t tips2 -> calm_tip t /\ vec_le (83 / 20 * b) (t_pos t)).
  { intros t IN. apply (boxed_calm _ _ (4 + k / 65536) b t SY BB ltac:(lra)); [exact (proj1 (Forall_forall _ _) E2 _ IN)|exact (proj1 (Forall_forall _ _) E4 _ IN)]. }
  split; apply Forall_forall; intros t IN; apply (CT t IN).
Qed.

(** ** The invariant *)
Lemma stylus_positions : forall b sm pos (t : float64) (pr ti o : float32) sm', Forall (fun q => vec_le b (r_pos q)) (s_raw (sm_state sm)) -> vec_le b pos ->
  stylus_update sm pos t pr ti o = Ret sm' -> Forall (fun q => vec_le b (r_pos q)) (s_raw (sm_state sm')).
Proof.
  intros b sm pos t pr ti o sm' F P H. unfold stylus_update in H. destruct (negb _ && _ && _ && _); [apply ret_inj in H; subst sm'; constructor|].
  match type of H with (let '(vel, acc) := ?e in _) = _ => destruct e as [vel acc] end.
  bind_inv H. apply ret_inj in H. subst sm'. cbn [sm_state s_raw]. rewrite Forall_forall in *.
  intros r I1. apply (trim_in acosf _ _ _ _ E) in I1. apply in_app_or in I1. destruct I1 as [I1|[<-|[]]]; [auto|exact P].
Qed.
Definition pred_in (b : R) (o : option Predictor) : Prop := match o with Some (PStrokeEnd _ _ (Some c)) => vec_le b c | _ => True end.
Lemma upd_pred_in : forall b o c (t : float64) o', vec_le b c -> upd_pred o c t = Ret o' -> pred_in b o'.
Proof.
  intros b [[pp sp l|k]|] c t o' P H; cbn [upd_pred pred_update obind] in H.
  - apply ret_inj in H. subst o'. exact P.
  - bind_inv H. apply ret_inj in H. subst o'. bind_inv E. apply ret_inj in E. subst x. exact I.
  - apply ret_inj in H. subst o'. exact I.
Qed.
Record binv (b : R) (p : StrokeModelParams) (es : list entry) (seen : list Input) (c : core) : Prop := mkBI {
  bi_tip : boxed (p_position p) 4 (33 / 32 * b) (co_tip c) /\ is_finite (t_time (co_tip c) : float64) = true /\
           B2R (t_time (co_tip c) : float64) = B2R (i_time (li_input (co_last c)) : float64);
  bi_raw : Forall plain (s_raw (co_s c)) /\ Forall (fun q => vec_le b (r_pos q)) (s_raw (co_s c));
  bi_latest : exists l i, seen = l ++ [i] /\ latest acosf (i_time i) (s_raw (co_s c));
  bi_l : paced (co_l c);
  bi_pred : pred_in b (co_pred c);
  bi_last : vec_le b (li_corrected (co_last c)) /\ @moderate_input acosf (li_input (co_last c));
  bi_es : Forall (fun e => Forall (boxed_result b) (snd e)) es
}.
Definition calm_box (b : R) (p : StrokeModelParams) (es : list entry) (seen : list Input) : Prop :=
  @damped_params acosf p /\ @boxed_inputs acosf b p (map fst es) seen.
Lemma boxed_snoc : forall b (p : StrokeModelParams) (acc seen l : list Input) (a i : Input), acc = l ++ [a] -> @boxed_inputs acosf b p (acc ++ [i]) (seen ++ [i]) ->
  @boxed_inputs acosf b p acc seen /\ @tick_gap acosf a i /\ @step_apart acosf a i /\ @moderate_input acosf i /\ vec_le b (i_pos i) /\
  (forall l j, seen = l ++ [j] -> spaced (i_time j) (i_time i)).
Proof.
  intros b p acc seen l a i EA (MI & FB & SS). destruct (inputs_snoc acosf _ _ _ _ _ _ EA MI) as (MI' & TG & MO & AP).
  apply Forall_app in FB. destruct FB as [FB BI]. apply Forall_inv in BI.
  assert (SA : @step_apart acosf a i) by (subst acc; apply sorted_init in SS; apply SS). apply sorted_prefix in SS.
  split; [split; [exact MI'|split; assumption]|]. auto.
Qed.
Definition box_accepting (b : R) (p : StrokeModelParams) (es : list entry) (seen : list Input) (c : core) : Prop :=
  (exists l, map fst es = l ++ [li_input (co_last c)]) /\ (List.length (map fst es) <= List.length seen)%nat /\ (calm_box b p es seen -> binv b p es seen c).
Lemma pow_30 : forall b v, B60 <= b <= 1073741824 -> vec_le b v -> vec_le (bpow radix2 30) v.
Proof. intros b v BB H. eapply vec_le_mono; [exact H|]. change (bpow radix2 30) with 1073741824. lra. Qed.
Lemma binv_state : forall fuel hist s es seen b, B60 <= b <= 1073741824 -> after_seen fuel hist s es seen ->
  exists m rs, run fuel modeler0 hist = Ret (m, rs) /\ tracks s m /\ good m /\ cons m /\
    (forall p last, m_params m = Some p -> m_last m = Some last -> box_accepting b p es seen (core_of p m last)).
Proof.
  intros fuel hist s es seen b BB AS.
  refine (after_seen_state fuel (fun _ => True) (box_accepting b) _ _ _ hist s es seen AS (call_in_true _)).
  - intros p m i m' out _ MP V G U EV.
    destruct (upd_down fuel m i m' out U EV) as (p' & sm & pred & MQ & _ & _ & SU & UP & -> & ->). assert (p' = p) by congruence. subst p'. clear MQ.
    split; [exists []; reflexivity|]. split; [apply le_n|]. intros (O & (F & _) & FB & _). apply Forall_inv in F. apply Forall_inv in FB.
    assert (VS : validate_stylus (sm_params (stylus_reset (m_stylus m) (p_stylus p))) = OkStatus) by apply (validate_params_parts p V).
    pose proof F as (P & [FT BT] & M1 & M2 & M3). pose proof (damped_springy p O) as SY.
    destruct (stylus_plain acosf (stylus_reset (m_stylus m) (p_stylus p)) _ _ _ _ _ _ (i_time i) VS ltac:(constructor) P M1 M2 M3 ltac:(discriminate) (or_introl eq_refl) SU) as [K1 K2].
    pose proof (stylus_positions b (stylus_reset (m_stylus m) (p_stylus p)) _ _ _ _ _ _ ltac:(constructor) FB SU) as K3.
    constructor; cbn [core_of co_w co_tip co_s co_l co_pred co_last m_wobble m_pos m_stylus m_loop m_predictor li_corrected li_input loop_reset l_samples pos_reset pm_state t_pos t_vel t_acc t_time].
    + split; [eapply start_boxed; [exact SY|exact FB|unfold B60 in BB; lra]|]. split; [exact FT|reflexivity].
    + split; assumption.
    + exists [], i. split; [reflexivity|exact K2].
    + constructor.
    + destruct (prediction_on p); [|exact I]. eapply upd_pred_in; [exact FB|exact UP].
    + split; [exact FB|exact F].
    + constructor; [|constructor]. constructor; [|constructor]. split; [apply down_finite; exact F|]. eapply vec_le_mono; [exact FB|unfold B60 in BB; lra].
  - intros p m i m' out es0 seen0 lst last' _ MP V G CP ML [(l & JL) [JN J]] U EV ML'. cbn [core_of co_last] in JL.
    destruct (upd_move fuel m i m' out U EV) as (p' & last0 & w & c & sm & n & tip & tips & pred & lm & MQ & _ & ML0 & DL & WU & SU & NS & UA & UP & MS & ->).
    assert (p' = p) by congruence. subst p'. clear MQ. assert (last0 = lst) by congruence. subst last0. cbn in ML'. apply some_inj in ML'. subst last'.
    assert (IN : exists l, map fst (es0 ++ [(i, out)]) = l ++ [i]) by (exists (map fst es0); rewrite map_app; reflexivity).
    split; [exact IN|]. split; [rewrite map_app, !app_length; apply Nat.add_le_mono_r; exact JN|]. intros (O & BI).
    rewrite map_app in BI. cbn [map fst] in BI. destruct (boxed_snoc _ _ _ _ _ _ _ JL BI) as (BI' & TG & SA & MO & PB & AP).
    destruct CP as (C1 & C2 & C3 & C4). assert (JQ : binv b p es0 seen0 (core_of p m lst)) by (apply J; split; assumption).
    apply wobble_off in WU; [|unfold A in *; rewrite C1; exact (dm_raw p O)]. subst c.
    destruct JQ as [(J1 & J1' & J1'') [J2 J2'] J3 J4 J6 [J7 J7'] J9].
    cbn [core_of co_w co_tip co_s co_l co_pred co_last] in *.
    destruct (stylus_step acosf p m seen0 i _ sm V C3 J2 J3 (pow_30 b _ BB PB) MO AP SU) as (S1 & S2). pose proof (stylus_positions b _ _ _ _ _ _ _ J2' PB SU) as S3. unfold A in *.
    rewrite C2 in UA. destruct (segment_boxed p b _ _ _ _ _ n _ _ V O BB J7' MO DL TG SA NS J7 PB J1 J1' J1'' UA) as (T1 & T2 & T3 & T4 & T5).
    assert (GB : lp_enabled (l_params (m_loop m)) = true -> good_bounds (l_params (m_loop m))) by (unfold A in *; rewrite C4; apply good_ok; [exact V|exact (dm_steady p O)]).
    destruct (stylus_boxed fuel b sm tips (m_loop m) (i_time i) lm out BB S1 S3 T4 T5 J4 GB MS) as (R1 & R2).
    constructor; cbn [core_of co_w co_tip co_s co_l co_pred co_last m_wobble m_pos m_stylus m_loop m_predictor li_corrected li_input pos_with_state pm_state]; auto.
    + exists seen0, i. split; [reflexivity|exact S2].
    + destruct (prediction_on p); [|exact I]. eapply upd_pred_in; [exact PB|exact UP].
    + apply Forall_app. split; [exact J9|]. constructor; [exact R1|constructor].
  - intros p m i m' out es0 seen0 lst e _ MP V G CP ML [JL [JN J]] U NE. split; [exact JL|].
    split; [destruct (traced i e); [rewrite app_length; apply Nat.le_trans with (1 := JN); apply Nat.le_add_r|exact JN]|]. intros RF. inversion U; subst; try congruence.
    + rewrite H0 in RF |- *. auto.
    + match goal with HN : number_of_steps _ _ _ _ _ = _ |- _ => rewrite (number_of_steps_traced _ _ _ _ _ _ i H1 HN) in RF |- * end.
      destruct RF as (O & MI & FB & SS). apply (seen_snoc acosf) in MI; [|exact JN]. destruct MI as (OW & MI & MO & AP). apply Forall_app in FB. destruct FB as [FB PB]. apply Forall_inv in PB.
      destruct J as [J1 [J2 J2'] J3 J4 J6 J7 J9]; [split; [exact O|split; [exact MI|split; assumption]]|].
      destruct CP as (C1 & C2 & C3 & C4). cbn [core_of co_w co_tip co_s co_l co_pred co_last] in *.
      match goal with HW : wobble_update _ _ _ = _ |- _ => apply wobble_off in HW; [|unfold A in *; rewrite C1; exact OW]; subst c end.
      match goal with HS : stylus_update _ _ _ _ _ _ = _ |- _ => destruct (stylus_step acosf p m seen0 i _ sm V C3 J2 J3 (pow_30 b _ BB PB) MO AP HS) as (S1 & S2); pose proof (stylus_positions b _ _ _ _ _ _ _ J2' PB HS) as S3 end.
      constructor; cbn [core_of co_w co_tip co_s co_l co_pred co_last m_wobble m_pos m_stylus m_loop m_predictor] in *; auto.
      exists seen0, i. split; [reflexivity|exact S2].
Qed.

(** What the next Update or prediction returns. *)
Lemma update_boxed : forall fuel hist s p es seen i rs out b, B60 <= b <= 1073741824 ->
  after_seen fuel hist s es seen -> ps_params s = Some p -> @damped_params acosf p -> @moderate_input acosf i -> vec_le b (i_pos i) ->
  (in_stroke s = true -> @boxed_inputs acosf b p (map fst es ++ [i]) (seen ++ [i])) ->
  answers fuel hist [CUpdate i rs] = Ret [RResults OkStatus (rs ++ out)] -> Forall (boxed_result b) out.
Proof.
  intros fuel hist s p es seen i rs out b BB AS PP O MO PB F AN.
  assert (AF : after fuel hist s) by (destruct AS as (ma & rsa & Ra & Pa & _); exists ma, rsa; auto).
  destruct (binv_state fuel hist s es seen b BB AS) as (m0 & rs0 & R0 & (T1 & T2 & _) & G & C & J).
  destruct (accepted_update _ _ _ _ _ _ _ AF AN) as (m & r0 & m' & out' & R & _ & _ & _ & EQ & U & _).
  unfold A in *. rewrite R0 in R. injection R as <- <-. apply app_inv_head in EQ. subst out'. rewrite T1 in PP.
  pose proof (g_valid _ G p PP) as V. pose proof (C p PP) as CP0.
  assert (LIVE : forall lst, m_last m0 = Some lst -> @boxed_inputs acosf b p (map fst es ++ [i]) (seen ++ [i])).
  { intros lst ML. apply F. unfold in_stroke. rewrite T2, ML. reflexivity. }
  destruct (i_event i) eqn:EV.
  - destruct (upd_down fuel m0 i m' out U EV) as (p' & sm & pred & MP & _ & _ & _ & _ & -> & _).
    constructor; [|constructor]. split; [apply down_finite; exact MO|]. eapply vec_le_mono; [exact PB|unfold B60 in BB; lra].
  - destruct (upd_move fuel m0 i m' out U EV) as (p' & lst & w & c & sm & n & tip & tips & pred & lm & MP & _ & ML & DL & WU & SU & NS & UA & UP & MS & _).
    assert (p' = p) by congruence. subst p'. pose proof (LIVE lst ML) as BI.
    destruct (CP0 ltac:(left; congruence)) as (C1 & C2 & C3 & C4). destruct (J p lst MP ML) as [(l & JL) [_ JQ']]. cbn [core_of co_last] in JL.
    destruct (boxed_snoc _ _ _ _ _ _ _ JL BI) as (BI' & TG & SA & _ & _ & AP).
    destruct JQ' as [(J1 & J1' & J1'') [J2 J2'] J3 J4 J6 [J7 J7'] J9]; [split; assumption|]. cbn [core_of co_w co_tip co_s co_l co_pred co_last] in *.
    apply wobble_off in WU; [|unfold A in *; rewrite C1; exact (dm_raw p O)]. subst c.
    destruct (stylus_step acosf p m0 seen i _ sm V C3 J2 J3 (pow_30 b _ BB PB) MO AP SU) as (S1 & S2). pose proof (stylus_positions b _ _ _ _ _ _ _ J2' PB SU) as S3.
    rewrite C2 in UA. destruct (segment_boxed p b _ _ _ _ _ n _ _ V O BB J7' MO DL TG SA NS J7 PB J1 J1' J1'' UA) as (K1 & K2 & K3 & K4 & K5).
    apply (stylus_boxed fuel b sm tips (m_loop m0) (i_time i) lm out BB S1 S3 K4 K5 J4); [unfold A in *; rewrite C4; apply good_ok; [exact V|exact (dm_steady p O)]|exact MS].
  - destruct (upd_up fuel m0 i m' out U EV) as (p' & lst & n & tip1 & tips1 & tip2 & tips2 & sm & lm & MP & _ & ML & DL & NS & UA & ME & SU & MS & _).
    assert (p' = p) by congruence. subst p'. pose proof (LIVE lst ML) as BI.
    destruct (CP0 ltac:(left; congruence)) as (C1 & C2 & C3 & C4). destruct (J p lst MP ML) as [(l & JL) [_ JQ']]. cbn [core_of co_last] in JL.
    destruct (boxed_snoc _ _ _ _ _ _ _ JL BI) as (BI' & TG & SA & _ & _ & AP).
    destruct JQ' as [(J1 & J1' & J1'') [J2 J2'] J3 J4 J6 [J7 J7'] J9]; [split; assumption|]. cbn [core_of co_w co_tip co_s co_l co_pred co_last] in *.
    destruct (stylus_step acosf p m0 seen i _ sm V C3 J2 J3 (pow_30 b _ BB PB) MO AP SU) as (S1 & S2). pose proof (stylus_positions b _ _ _ _ _ _ _ J2' PB SU) as S3. rewrite C2 in UA, ME.
    destruct (segment_boxed p b _ _ _ _ _ n _ _ V O BB J7' MO DL TG SA NS J7 PB J1 J1' J1'' UA) as (K1 & K2 & K3 & K4 & K5).
    destruct (ending_boxed p b tip1 (i_pos i) tip2 tips2 V O BB PB K1 K2) as [[K6 K7] [K8 K9]]; [unfold A in *; rewrite K3; apply MO|exact ME|].
    assert (Q1 : Forall calm_tip (tips1 ++ tips2)) by (apply Forall_app; split; assumption).
    assert (Q2 : Forall (fun t => vec_le (83 / 20 * b) (t_pos t)) (tips1 ++ tips2)) by (apply Forall_app; split; assumption).
    apply (stylus_boxed fuel b sm _ (m_loop m0) (i_time (li_input lst)) lm out BB S1 S3) in MS; [exact (proj1 MS)| | |exact J4|unfold A in *; rewrite C4; apply good_ok; [exact V|exact (dm_steady p O)]].
    + destruct (tips1 ++ tips2); [constructor; [exact K6|constructor]|exact Q1].
    + destruct (tips1 ++ tips2); [constructor; [exact K7|constructor]|exact Q2].
  - destruct (upd_other fuel m0 i m' out z U EV).
Qed.
Lemma predict_boxed : forall fuel hist s p es seen rs out b, B60 <= b <= 1073741824 ->
  after_seen fuel hist s es seen -> ps_params s = Some p -> p_prediction p = PredStrokeEnd -> @damped_params acosf p -> @boxed_inputs acosf b p (map fst es) seen ->
  answers fuel hist [CPredict rs] = Ret [RResults OkStatus out] -> Forall (boxed_result b) out.
Proof.
  intros fuel hist s p es seen rs out b BB AS P PS O MI AN.
  assert (AF : after fuel hist s) by (destruct AS as (ma & rsa & Ra & Pa & _); exists ma, rsa; auto).
  destruct (binv_state fuel hist s es seen b BB AS) as (m & rs0 & R0 & (T1 & T2 & _) & G & C & J).
  destruct (remembered_state _ _ _ _ _ AS) as (m1 & rs1 & R1 & _ & _ & _ & RM). unfold A in *. rewrite R0 in R1. injection R1 as <- <-.
  destruct (accepted_predict _ _ _ _ _ _ AF AN) as (m1 & r0 & m' & R & _ & _ & _ & U). rewrite R0 in R. injection R as <- <-.
  destruct (prd_ok fuel m m' out U) as (p' & pr & last0 & tips & lm & MQ & MPR & ML & PC & MS & _). rewrite T1 in P.
  assert (p' = p) by congruence. subst p'. pose proof (g_valid _ G p P) as V. destruct (J p last0 MQ ML) as [(l & JL) [_ JQ]].
  destruct (RM p last0 MQ ML) as (cs & ws & [H1 H2 H3 H4 H5 H6]).
  assert (ON : prediction_on p = true) by (unfold prediction_on; rewrite PS; reflexivity). specialize (H6 ON).
  destruct JQ as [(J1 & J1' & J1'') [J2 J2'] J3 J4 J6 [J7 J7'] J9]; [split; auto|].
  destruct (C p MQ ltac:(left; congruence)) as (C1 & C2 & C3 & C4).
  cbn [core_of co_w co_s co_last co_l co_pred co_tip] in *. rewrite ON, MPR in *.
  destruct (predicting_end_F _ _ _ _ PS H6) as (o & EO). apply some_inj in EO. subst pr.
  assert (TI : Forall calm_tip tips /\ Forall (fun t => vec_le (83 / 20 * b) (t_pos t)) tips).
  { cbn [pred_construct] in PC. destruct o as [pos|]; apply ret_inj in PC; subst tips; [|split; constructor].
    destruct (model_end_of_stroke _ _ _ _ _ _) as [t ts] eqn:ME. cbn [snd]. cbn [pred_in] in J6.
    eapply (ending_boxed p b); [exact V|exact O|exact BB|exact J6|exact J1|exact J1'|unfold A in *; rewrite J1''; apply J7'|exact ME]. }
  destruct TI as [TI TL].
  apply (stylus_boxed fuel b _ _ _ _ _ _ BB J2 J2' TI TL J4) in MS; [exact (proj1 MS)|unfold A in *; rewrite C4; apply good_ok; [exact V|exact (dm_steady p O)]].
Qed.
End Bounded.

(** ** C52 *)
(** Every result of the stroke so far, however long, is finite and in the box of half-width 4.25 b
    if all inputs are in the box of half-width b. *)
Theorem C52_float_results_in_box : forall acosf (A := ieee acosf) fuel hist s (p : StrokeModelParams (A := ieee acosf)) es (seen : list (Input (A := ieee acosf))) b,
  after_seen fuel hist s es seen -> in_stroke s = true -> ps_params s = Some p -> damped_params p ->
  bpow radix2 (-60) <= b <= bpow radix2 30 -> boxed_inputs b p (map fst es) seen ->
  Forall (fun r : Result (A := ieee acosf) => all_finite r /\ in_box (17 / 4 * b) (r_pos r)) (List.concat (map snd es)).
Proof.
  intros acosf A fuel hist s p es seen b AS IS PP O BB BI. subst A.
  destruct (binv_state acosf fuel hist s es seen b BB AS) as (m & rs & R & (T1 & T2 & _) & G & C & J).
  unfold in_stroke in IS. rewrite T2 in IS. destruct (m_last m) as [last|] eqn:ML; [|discriminate IS].
  rewrite T1 in PP. destruct (J p last PP eq_refl) as [_ [_ JQ]]. destruct JQ as [_ _ _ _ _ _ J9]; [split; assumption|].
  clear - J9. induction J9 as [|e es H J9 IH]; [constructor|]. cbn [map List.concat]. apply Forall_app. split; [|exact IH].
  eapply Forall_impl; [|exact H]. intros r [F B]. split; [exact (finite_all acosf r F)|exact B].
Qed.
(** So are the results of the next Update, Down, Move or Up. *)
Theorem C52_float_update_in_box : forall acosf (A := ieee acosf) fuel hist s (p : StrokeModelParams (A := ieee acosf)) es (seen : list (Input (A := ieee acosf))) b (i : Input (A := ieee acosf)) rs out,
  after_seen fuel hist s es seen -> ps_params s = Some p -> damped_params p -> bpow radix2 (-60) <= b <= bpow radix2 30 ->
  moderate_input i -> in_box b (i_pos i) -> (in_stroke s = true -> boxed_inputs b p (map fst es ++ [i]) (seen ++ [i])) ->
  answers fuel hist [CUpdate i rs] = Ret [RResults OkStatus (rs ++ out)] ->
  Forall (fun r : Result (A := ieee acosf) => all_finite r /\ in_box (17 / 4 * b) (r_pos r)) out.
Proof.
  intros acosf A fuel hist s p es seen b i rs out AS PP O BB MO PB F AN. subst A.
  eapply Forall_impl; [|exact (update_boxed acosf fuel hist s p es seen i rs out b BB AS PP O MO PB F AN)]. intros r [FR B]. split; [exact (finite_all acosf r FR)|exact B].
Qed.
(** And a prediction to the end of the stroke. *)
Theorem C52_float_prediction_in_box : forall acosf (A := ieee acosf) fuel hist s (p : StrokeModelParams (A := ieee acosf)) es (seen : list (Input (A := ieee acosf))) b rs out,
  after_seen fuel hist s es seen -> ps_params s = Some p -> p_prediction p = PredStrokeEnd -> damped_params p -> bpow radix2 (-60) <= b <= bpow radix2 30 ->
  boxed_inputs b p (map fst es) seen -> answers fuel hist [CPredict rs] = Ret [RResults OkStatus out] ->
  Forall (fun r : Result (A := ieee acosf) => all_finite r /\ in_box (17 / 4 * b) (r_pos r)) out.
Proof.
  intros acosf A fuel hist s p es seen b rs out AS PP PS O BB BI AN. subst A.
  eapply Forall_impl; [|exact (predict_boxed acosf fuel hist s p es seen rs out b BB AS PP PS O BI AN)]. intros r [FR B]. split; [exact (finite_all acosf r FR)|exact B].
Qed.

(** ** When every time is a multiple of 2^-16 s *)
(** An ordinary input in the box, at a multiple of 2^-16 s. *)
Definition coarse_input {acosf : float32 -> float32} (b : R) (i : Input (A := ieee acosf)) : Prop :=
  moderate_input i /\ in_box b (i_pos i) /\ exists k, B2R (i_time i : float64) = IZR k / 65536.
Lemma coarse_ticking : forall acosf b (i : Input (A := ieee acosf)), coarse_input b i -> ticking_input i.
Proof. intros acosf b i (M & _ & k & K). split; [exact M|]. exists (16 * k)%Z. rewrite K, mult_IZR. field. Qed.
Lemma coarse_apart : forall acosf b (i j : Input (A := ieee acosf)), coarse_input b i -> coarse_input b j -> dltb (i_time j) (i_time i) = false -> step_apart i j.
Proof.
  intros acosf b i j ((_ & (FI & _) & _) & _ & k & KI) ((_ & (FJ & _) & _) & _ & l & KJ) DL. cbn [dltb ieee] in DL. apply (ltb_false_R 53 1024) in DL; [|assumption|assumption].
  assert (E : forall x y : R, x = IZR k / 65536 -> y = IZR l / 65536 -> x <= y -> x = y \/ / 65536 <= y - x).
  { intros x y -> -> L. assert (LE : IZR k <= IZR l) by lra. apply le_IZR in LE. destruct (Z.eq_dec k l) as [->|NE]; [left; reflexivity|right].
    assert (H : IZR (k + 1) <= IZR l) by (apply IZR_le; lia). rewrite plus_IZR in H. lra. }
  exact (E _ _ KI KJ DL).
Qed.
(** Accepted inputs are in order. *)
Definition not_before {A : Arith} (i j : Input) : Prop := dltb (i_time j) (i_time i) = false.
Definition orderly {A : Arith} (p : StrokeModelParams) (es : list entry) (seen : list Input) (c : core) : Prop :=
  Sorted not_before (map fst es) /\ exists l, map fst es = l ++ [li_input (co_last c)].
Lemma orderly_state : forall {A : Arith} fuel hist s es seen, after_seen fuel hist s es seen ->
  exists m rs, run fuel modeler0 hist = Ret (m, rs) /\ tracks s m /\ good m /\ cons m /\
    (forall p last, m_params m = Some p -> m_last m = Some last -> orderly p es seen (core_of p m last)).
Proof.
  intros A fuel hist s es seen AS.
  refine (after_seen_state fuel (fun _ => True) orderly _ _ _ hist s es seen AS (call_in_true _)).
  - intros p m i m' out _ MP V G U EV. destruct (upd_down fuel m i m' out U EV) as (p' & sm & pred & MQ & _ & _ & SU & UP & -> & ->).
    split; [repeat constructor|exists []; reflexivity].
  - intros p m i m' out es0 seen0 lst last' _ MP V G CP ML [JS (l & JL)] U EV ML'. cbn [core_of co_last] in JL.
    destruct (upd_move fuel m i m' out U EV) as (p' & last0 & w & c & sm & n & tip & tips & pred & lm & MQ & _ & ML0 & DL & WU & SU & NS & UA & UP & MS & ->).
    assert (last0 = lst) by congruence. subst last0. cbn in ML'. apply some_inj in ML'. subst last'.
    split; [|exists (map fst es0); rewrite map_app; reflexivity]. rewrite map_app. rewrite JL in JS. pose proof (sorted_snoc not_before _ _ i JS DL) as SN. rewrite <- JL in SN. exact SN.
  - intros p m i m' out es0 seen0 lst e _ MP V G CP ML J U NE. destruct J as [JS JL]. split; [exact JS|].
    inversion U; subst; try congruence; exact JL.
Qed.
Lemma coarse_boxed : forall acosf b (p : StrokeModelParams (A := ieee acosf)) (acc seen : list (Input (A := ieee acosf))), wp_enabled (p_wobble p) = false ->
  Forall (coarse_input b) acc -> Forall (coarse_input b) seen -> Sorted not_before acc -> boxed_inputs b p acc seen.
Proof.
  intros acosf b p acc seen OFF F1 F2 S. split; [|split].
  - apply ticking_inputs; [| |intros ON; rewrite OFF in ON; discriminate ON]; (eapply Forall_impl; [|eassumption]); intros i; apply coarse_ticking.
  - eapply Forall_impl; [|exact F2]. intros i (_ & H & _). exact H.
  - clear F2. induction S as [|i l S IH H]; [constructor|]. pose proof (Forall_inv F1) as C. apply Forall_inv_tail in F1. constructor; [exact (IH F1)|].
    destruct H as [|j l H]; constructor. apply (coarse_apart acosf b); [exact C|exact (Forall_inv F1)|exact H].
Qed.

(** If every input ever offered is of this kind, all results of a stroke of any length are in the box. *)
Theorem C52_float_any_stroke_in_box : forall acosf (A := ieee acosf) fuel hist s (p : StrokeModelParams (A := ieee acosf)) es (seen : list (Input (A := ieee acosf))) b,
  Forall (call_input_ok (coarse_input b)) hist -> bpow radix2 (-60) <= b <= bpow radix2 30 ->
  after_seen fuel hist s es seen -> in_stroke s = true -> ps_params s = Some p -> damped_params p ->
  Forall (fun r : Result (A := ieee acosf) => all_finite r /\ in_box (17 / 4 * b) (r_pos r)) (List.concat (map snd es)).
Proof.
  intros acosf A fuel hist s p es seen b FH BB AS IS PP O. subst A. destruct (seen_in _ fuel hist s es seen AS FH) as [F1 F2].
  refine (C52_float_results_in_box acosf fuel hist s p es seen b AS IS PP O BB _). apply coarse_boxed; [exact (dm_raw p O)|exact F1|exact F2|].
  destruct (orderly_state fuel hist s es seen AS) as (m & rs & R & (T1 & T2 & _) & _ & _ & J).
  unfold in_stroke in IS. rewrite T2 in IS. destruct (m_last m) as [last|] eqn:ML; [|discriminate IS]. rewrite T1 in PP. apply (J p last PP eq_refl).
Qed.
Theorem C52_float_any_update_in_box : forall acosf (A := ieee acosf) fuel hist s (p : StrokeModelParams (A := ieee acosf)) es (seen : list (Input (A := ieee acosf))) b (i : Input (A := ieee acosf)) rs out,
  Forall (call_input_ok (coarse_input b)) hist -> coarse_input b i -> bpow radix2 (-60) <= b <= bpow radix2 30 ->
  after_seen fuel hist s es seen -> ps_params s = Some p -> damped_params p ->
  answers fuel hist [CUpdate i rs] = Ret [RResults OkStatus (rs ++ out)] ->
  Forall (fun r : Result (A := ieee acosf) => all_finite r /\ in_box (17 / 4 * b) (r_pos r)) out.
Proof.
  intros acosf A fuel hist s p es seen b i rs out FH CI BB AS PP O AN. subst A. destruct (seen_in _ fuel hist s es seen AS FH) as [F1 F2].
  refine (C52_float_update_in_box acosf fuel hist s p es seen b i rs out AS PP O BB (proj1 CI) (proj1 (proj2 CI)) _ AN). intros IS.
  apply coarse_boxed; [exact (dm_raw p O)|apply Forall_app; split; [exact F1|constructor; [exact CI|constructor]]|apply Forall_app; split; [exact F2|constructor; [exact CI|constructor]]|].
  destruct (orderly_state fuel hist s es seen AS) as (m & rs0 & R & (T1 & T2 & _) & _ & _ & J).
  unfold in_stroke in IS. rewrite T2 in IS. destruct (m_last m) as [last|] eqn:ML; [|discriminate IS]. rewrite T1 in PP. destruct (J p last PP eq_refl) as [S (l & E)].
  cbn [core_of co_last] in E. rewrite E in S. cut (not_before (li_input last) i); [intros NB; pose proof (sorted_snoc not_before _ _ i S NB) as SN; rewrite <- E in SN; exact SN|].
  assert (AF : after fuel hist s) by (destruct AS as (ma & rsa & Ra & Pa & _); exists ma, rsa; auto).
  destruct (accepted_update _ _ _ _ _ _ _ AF AN) as (m0 & r0 & m' & out' & R0 & _ & _ & _ & _ & U & _). rewrite R in R0. injection R0 as <- <-.
  destruct (i_event i) eqn:EV.
  - destruct (upd_down fuel m i m' out' U EV) as (p' & sm & pred & MP & _ & ML0 & _). congruence.
  - destruct (upd_move fuel m i m' out' U EV) as (p' & lst & w & c & sm & n & tip & tips & pred & lm & MP & _ & ML0 & DL & _). assert (lst = last) by congruence. subst lst. exact DL.
  - destruct (upd_up fuel m i m' out' U EV) as (p' & lst & n & tip1 & tips1 & tip2 & tips2 & sm & lm & MP & _ & ML0 & DL & _). assert (lst = last) by congruence. subst lst. exact DL.
  - destruct (upd_other fuel m i m' out' z U EV).
Qed.
Theorem C52_float_any_prediction_in_box : forall acosf (A := ieee acosf) fuel hist s (p : StrokeModelParams (A := ieee acosf)) es (seen : list (Input (A := ieee acosf))) b rs out,
  Forall (call_input_ok (coarse_input b)) hist -> bpow radix2 (-60) <= b <= bpow radix2 30 ->
  after_seen fuel hist s es seen -> ps_params s = Some p -> p_prediction p = PredStrokeEnd -> damped_params p ->
  answers fuel hist [CPredict rs] = Ret [RResults OkStatus out] ->
  Forall (fun r : Result (A := ieee acosf) => all_finite r /\ in_box (17 / 4 * b) (r_pos r)) out.
Proof.
  intros acosf A fuel hist s p es seen b rs out FH BB AS PP PS O AN. subst A. destruct (seen_in _ fuel hist s es seen AS FH) as [F1 F2].
  refine (C52_float_prediction_in_box acosf fuel hist s p es seen b rs out AS PP PS O BB _ AN). apply coarse_boxed; [exact (dm_raw p O)|exact F1|exact F2|].
  destruct (orderly_state fuel hist s es seen AS) as (m & rs0 & R & (T1 & T2 & _) & _ & _ & J).
  assert (AF : after fuel hist s) by (destruct AS as (ma & rsa & Ra & Pa & _); exists ma, rsa; auto).
  destruct (accepted_predict _ _ _ _ _ _ AF AN) as (m1 & r0 & m' & R1 & _ & _ & _ & U). rewrite R in R1. injection R1 as <- <-.
  destruct (prd_ok fuel m m' out U) as (p' & pr & last0 & tips & lm & MQ & MPR & ML & PC & MS & _). apply (J p' last0 MQ ML).
Qed.
