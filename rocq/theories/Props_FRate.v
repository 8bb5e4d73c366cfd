(** * C22 in IEEE arithmetic: the results cover the time between two inputs. *)
From Coq Require Import ZArith Bool List Sorted Reals Lra Lia Psatz.
From Flocq Require Import Core.Core IEEE754.BinarySingleNaN Relative.
From Verif Require Export Props_Finite Props_Time.
Import ListNotations.
Open Scope R_scope.

(** ** Specification *)
Definition time_R {acosf : float32 -> float32} (i : Input (A := ieee acosf)) : R := B2R (i_time i : float64).
Definition result_R {acosf : float32 -> float32} (r : Result (A := ieee acosf)) : R := B2R (r_time r : float64).
(** The results [out] are evenly spaced over the time from [t0] to [t1], up to about
    half a unit in the last place of a float of size 1 (the code computes the position
    within the segment as a float), and the rounding of the time itself. *)
Definition nearly_even {acosf : float32 -> float32} (t0 t1 : R) (out : list (Result (A := ieee acosf))) : Prop :=
  forall j r, nth_error out j = Some r ->
    Rabs (result_R r - (t0 + (t1 - t0) * (INR (S j) / INR (List.length out)))) <=
    (t1 - t0) / 16777216 + Rmax (Rabs t0) (Rabs t1) / 9007199254740992 + bpow radix2 (-149).

(** One sampling period and a little more: [n] is the largest number of results per
    call, [T] the largest time. *)
Definition float_period (rate : R) (n : Z) (T : R) : R := (1 + (IZR n + 2) / 4194304) / rate + T / 4503599627370496.
Definition rate_moderate (rate : R) : Prop := / 1048576 <= rate <= bpow radix2 100.

(** ** Proof *)
Section FRate.
Variable acosf : float32 -> float32.
Let A := ieee acosf.
Local Existing Instance A.

Lemma d2f_inv : forall x : float64, is_finite x = true -> is_finite (b64_to_b32 x) = true -> B2R (b64_to_b32 x) = r32 (B2R x).
Proof.
  intros x F H. destruct (Rlt_le_dec (Rabs (r32 (B2R x))) (bpow radix2 128)) as [S|S].
  - exact (proj2 (d2f_fin x F S)).
  - rewrite (d2f_over x F) in H; [discriminate H|]. intros K. exact (Rlt_not_le _ _ K S).
Qed.
Lemma mult_inv : forall x y : float64, is_finite (Bmult mode_NE x y) = true ->
  is_finite x = true /\ is_finite y = true /\ B2R (Bmult mode_NE x y) = r64 (B2R x * B2R y).
Proof.
  intros x y H.
  assert (FX : is_finite x = true) by (destruct x as [s|s| |s m e B]; try reflexivity; destruct y; discriminate H).
  assert (FY : is_finite y = true) by (destruct y as [s|s| |s m e B]; try reflexivity; destruct x; discriminate H).
  split; [exact FX|]. split; [exact FY|].
  pose proof (Bmult_correct 53 1024 _ _ mode_NE x y) as K. destruct (Rlt_bool _ _) eqn:E.
  - destruct K as (K & _). exact K.
  - rewrite overflow_NE in K. apply B2SF_inf in K. rewrite K in H. discriminate H.
Qed.

(** The number of samples is that of the exact computation, up to rounding. *)
Lemma steps_finite : forall tip a b sp pp n, number_of_steps tip a b sp pp = Ret (IOk n) -> (sp_max_outputs sp < INT_MAX)%Z ->
  is_finite (dmul (f2d (d2f (dsub (i_time b) (i_time a)))) (sp_rate sp) : float64) = true.
Proof.
  intros tip a b sp pp n NS MO. unfold number_of_steps in NS. set (x := dmul (f2d (d2f (dsub (i_time b) (i_time a)))) (sp_rate sp)) in *.
  destruct (dtoint _) as [z|] eqn:Z in NS; cbn [to_int] in NS; [|discriminate NS].
  destruct (absolute_angle_to _ _) in NS; [|discriminate NS].
  assert (FIN : forall k, (if Z.ltb (sp_max_outputs sp) k then Ret (IErr (InvalidArgument msg_too_far)) else Ret (IOk k)) = Ret (IOk n) -> k = n /\ (n <= sp_max_outputs sp)%Z).
  { intros k. destruct (Z.ltb_spec (sp_max_outputs sp) k); intros Q; apply ret_inj in Q; [discriminate Q|]. assert (k = n) by congruence. split; [assumption|lia]. }
  assert (NZ : (z <= n <= sp_max_outputs sp)%Z).
  { destruct (dltb d0 (sp_max_angle sp)) in NS.
    - unfold to_int in NS. destruct (dtoint _) as [z2|] in NS; [|discriminate NS]. apply FIN in NS. destruct (Z.ltb_spec z z2); lia.
    - apply FIN in NS. lia. }
  clearbody x. unfold A in *. cbn [dtoint dceil dofZ ieee] in Z. unfold std_dmin in Z. cbn [dltb ieee] in Z.
  destruct (ofZ_64 INT_MAX) as [I1 I2]; [reflexivity|]. set (M := binary_normalize 53 1024 _ _ mode_NE INT_MAX 0 false) in *.
  destruct (Bltb M (Bnearbyint mode_UP (x : float64))) eqn:E; apply (to_int_some 53 1024) in Z; try exact _.
  - exfalso. destruct Z as (_ & Z & _). rewrite I2, Ztrunc_IZR in Z. lia.
  - destruct Z as (F & _). destruct (Bnearbyint_correct 53 1024 _ mode_UP (x : float64)) as (_ & K & _). rewrite K in F. exact F.
Qed.

Lemma steps_count : forall tip a b p n (g : float64), number_of_steps tip a b (p_sampling p) (p_position p) = Ret (IOk n) ->
  validate_params p = OkStatus -> (sp_max_outputs (p_sampling p) < INT_MAX)%Z ->
  is_finite (i_time a : float64) = true -> is_finite (i_time b : float64) = true -> B2R (i_time a : float64) <= B2R (i_time b : float64) ->
  is_finite g = true -> B2R g = B2R (i_time b : float64) - B2R (i_time a : float64) ->
  (n <= sp_max_outputs (p_sampling p))%Z /\ 0 < B2R (sp_rate (p_sampling p) : float64) /\
  B2R g * B2R (sp_rate (p_sampling p) : float64) * (1 - / 8388608) <= IZR n + bpow radix2 (-149) * (B2R (sp_rate (p_sampling p) : float64) + 1) /\
  ((n <= 0)%Z -> r64 (r32 (B2R g) * B2R (sp_rate (p_sampling p) : float64)) <= 0).
Proof.
  intros tip a b p n g NS V MO FA FB LE FG EG. pose proof (steps_finite _ _ _ _ _ _ NS MO) as FX. destruct (steps_rate acosf _ _ _ _ _ _ NS MO) as [N1 N2].
  specialize (N2 FX). split; [exact N1|].
  assert (R0 : is_finite (sp_rate (p_sampling p) : float64) = true /\ 0 < B2R (sp_rate (p_sampling p) : float64)).
  { destruct (validate_params_parts p V) as (_ & _ & VS & _). unfold validate_sampling in VS. apply and_then_ok in VS. destruct VS as [VR _]. apply gt0_d_F in VR. exact VR. }
  destruct R0 as [FR R0]. split; [exact R0|].
  unfold A in *. cbn [dmul f2d d2f dsub ieee] in FX, N2.
  set (ta := i_time a) in *. set (tb := i_time b) in *. set (rt := sp_rate (p_sampling p)) in *. clearbody ta tb rt. clear p a b tip NS V MO N1. change float64 in ta, tb, rt.
  destruct (mult_inv _ _ FX) as (F1 & _ & E1). rewrite E1 in N2.
  assert (F2 : is_finite (b64_to_b32 (Bminus mode_NE tb ta)) = true) by (destruct (b64_to_b32 (Bminus mode_NE tb ta)); try reflexivity; discriminate F1).
  destruct (f2d_fin _ F2) as [_ E2]. rewrite E2 in N2.
  destruct (minus_fin 53 1024 _ _ tb ta FB FA) as [M1 M2]; [apply small_bound with (x := g); [reflexivity|]; rewrite EG; apply Rle_refl|].
  rewrite <- EG in M2. rewrite rnd_id in M2 by apply fmt_B2R.
  rewrite (d2f_inv _ M1 F2), M2 in N2. assert (D0 : 0 <= B2R g) by (rewrite EG; lra). set (d := B2R g) in *. set (r := B2R rt) in *.
  split; [|intros NZ; eapply Rle_trans; [exact N2|apply (IZR_le n 0); exact NZ]].
  pose proof (r32_error d) as E3. rewrite (Rabs_pos_eq d) in E3 by lra. apply Rabs_le_inv in E3.
  assert (P1 : 0 <= r32 d) by (apply rnd_ge0; [reflexivity|lra]). unfold u24 in E3.
  assert (P2 : 0 <= r32 d * r) by (apply Rmult_le_pos; lra).
  pose proof (r64_error (r32 d * r)) as E4. rewrite (Rabs_pos_eq (r32 d * r)) in E4 by lra. apply Rabs_le_inv in E4. unfold u53 in E4.
  assert (LO : (d * (1 - / 16777216) - eta) * r <= r32 d * r) by (apply Rmult_le_compat_r; lra).
  assert (EE : bpow radix2 (-149) = 2 * eta) by (unfold eta; change (-149)%Z with (1 + -150)%Z; rewrite bpow_plus; reflexivity).
  pose proof eta_pos as T0. assert (T2 : 0 <= eta * r) by (apply Rmult_le_pos; lra). assert (T3 : 0 <= d * r) by (apply Rmult_le_pos; lra).
  rewrite EE. replace ((d * (1 - / 16777216) - eta) * r) with (d * r - d * r * / 16777216 - eta * r) in LO by ring.
  replace (d * r * (1 - / 8388608)) with (d * r - d * r * / 8388608) by ring. replace (2 * eta * (r + 1)) with (2 * (eta * r) + 2 * eta) by ring.
  set (y := r32 d * r) in *. set (w := d * r) in *. set (v := eta * r) in *. clearbody y w v. clear - LO E4 N2 T0 T2 T3 P2. lra.
Qed.

(** Where a sample lies. *)
Lemma ratio_error : forall n j, (Z.of_nat j <= n)%Z -> (1 <= n <= 16777216)%Z ->
  Rabs (B2R (ratio n j) - INR j / IZR n) <= / 33554432.
Proof.
  intros n j J N. destruct (ratio_fin n j J ltac:(unfold INT_MAX; lia)) as (_ & E1 & _).
  assert (EX : forall z, (0 <= z <= 16777216)%Z -> r32 (IZR z) = IZR z).
  { intros z Z. destruct (Z.eq_dec z 16777216) as [->|NE].
    - apply rnd_id. change (IZR 16777216) with (bpow radix2 24). apply fmt_bpow; [reflexivity|lia].
    - apply rnd_id. apply (fmt_IZR 24 128 z); [lia|]; rewrite Z.abs_eq by lia; lia. }
  rewrite !INR_IZR_INZ in *. rewrite !EX in E1 by lia. rewrite E1. clear E1.
  assert (N0 : 1 <= IZR n) by (apply IZR_le; lia). assert (NI : 0 < / IZR n) by (apply Rinv_0_lt_compat; lra).
  change (/ 33554432) with (bpow radix2 (-25)). apply error_32. unfold Rdiv. rewrite Rabs_pos_eq.
  - apply Rmult_le_reg_r with (IZR n); [lra|]. rewrite Rmult_assoc, Rinv_l by lra. rewrite Rmult_1_r, Rmult_1_l. apply IZR_le. exact J.
  - apply Rmult_le_pos; [apply IZR_le; lia|lra].
Qed.
Lemma time_error : forall (t0 t1 g : float64) (r : float32) q, is_finite t0 = true -> is_finite t1 = true -> B2R t0 <= B2R t1 ->
  is_finite g = true -> B2R g = B2R t1 - B2R t0 -> unit32 r -> Rabs (B2R r - q) <= / 33554432 ->
  Rabs (B2R (interp_t t0 t1 r : float64) - (B2R t0 + B2R g * q)) <=
    B2R g / 16777216 + Rmax (Rabs (B2R t0)) (Rabs (B2R t1)) / 9007199254740992 + bpow radix2 (-149).
Proof.
  intros t0 t1 g r q F0 F1 OR FG EG U Q. destruct (interp_t_fin acosf t0 t1 g r F0 F1 OR FG EG U) as (_ & E & _).
  unfold A. fold (interp_t (A := ieee acosf) t0 t1 r). rewrite E. clear E. destruct U as (_ & U).
  set (G := B2R g) in *. set (x := B2R r) in *. set (a := B2R t0) in *. set (b := B2R t1) in *. assert (G0 : 0 <= G) by lra.
  pose proof (r64_error (G * x)) as E1. assert (GX : 0 <= G * x <= G) by nra. rewrite (Rabs_pos_eq (G * x)) in E1 by lra.
  assert (MB : 0 <= r64 (G * x) <= G).
  { split; [apply rnd_ge0; [reflexivity|lra]|apply rnd_le_fmt; [reflexivity|apply fmt_B2R|lra]]. }
  set (m := r64 (G * x)) in *. pose proof (r64_error (a + m)) as E2.
  assert (TB : Rabs (a + m) <= Rmax (Rabs a) (Rabs b)).
  { destruct (Rcase_abs (a + m)) as [N|N].
    - rewrite (Rabs_left (a + m)) by exact N. eapply Rle_trans; [|apply Rmax_l]. rewrite Rabs_left1 by lra. lra.
    - rewrite (Rabs_right (a + m)) by exact N. eapply Rle_trans; [|apply Rmax_r]. rewrite Rabs_pos_eq by lra. lra. }
  set (T := Rmax (Rabs a) (Rabs b)) in *. apply Rabs_le_inv in E1, E2, Q.
  assert (Q1 : G * (x - q) <= G * / 33554432) by (apply Rmult_le_compat_l; lra).
  assert (Q2 : G * (q - x) <= G * / 33554432) by (apply Rmult_le_compat_l; lra).
  assert (EE : bpow radix2 (-149) = 2 * eta) by (unfold eta; change (-149)%Z with (1 + -150)%Z; rewrite bpow_plus; reflexivity).
  rewrite EE. unfold u53 in *. unfold Rdiv. replace (G * (x - q)) with (G * x - G * q) in Q1 by ring. replace (G * (q - x)) with (G * q - G * x) in Q2 by ring.
  apply Rabs_le. set (y := G * q) in *. set (z := G * x) in *. set (w := r64 (a + m)) in *. set (k := Rabs (a + m)) in *. clearbody y z w k T m.
  clear - E1 E2 Q1 Q2 TB GX G0. split; lra.
Qed.

Lemma nth_map_seq : forall {X} (f : nat -> X) k i j x, nth_error (map f (seq i k)) j = Some x -> x = f (i + j)%nat.
Proof.
  intros X f. induction k as [|k IH]; intros i j x H; [destruct j; discriminate H|]. cbn [seq map] in H. destruct j as [|j].
  - injection H as <-. rewrite Nat.add_0_r. reflexivity.
  - cbn [nth_error] in H. apply IH in H. rewrite H. f_equal. lia.
Qed.
Lemma path_even : forall p s a (t0 : float64) b (t1 : float64) n sf out,
  update_along_path p s a t0 b t1 n = Ret (sf, out) -> (n <= 16777216)%Z ->
  is_finite t0 = true -> is_finite t1 = true -> B2R t0 <= B2R t1 ->
  (exists g : float64, is_finite g = true /\ B2R g = B2R t1 - B2R t0) ->
  List.length out = Z.to_nat n /\
  forall j t, nth_error out j = Some t ->
    Rabs (B2R (t_time t : float64) - (B2R t0 + (B2R t1 - B2R t0) * (INR (S j) / INR (Z.to_nat n)))) <=
    (B2R t1 - B2R t0) / 16777216 + Rmax (Rabs (B2R t0)) (Rabs (B2R t1)) / 9007199254740992 + bpow radix2 (-149).
Proof.
  intros p s a t0 b t1 n sf out H N F0 F1 L (g & FG & EG). unfold update_along_path in H.
  destruct (Z.leb_spec INT_MAX n); [discriminate H|]. apply ret_inj in H.
  apply (path_loop_times acosf _ p s a t0 b t1 n 1) in H. destruct H as [E1 _].
  assert (LEN : List.length out = Z.to_nat n) by (apply (f_equal (@List.length _)) in E1; rewrite !map_length, seq_length in E1; exact E1).
  split; [exact LEN|]. intros j t NE. rewrite <- EG.
  assert (JL : (j < Z.to_nat n)%nat) by (rewrite <- LEN; apply nth_error_Some; intros Q; rewrite Q in NE; discriminate NE).
  assert (TT : t_time t = interp_t t0 t1 (ratio n (S j))).
  { unfold A in *. apply (map_nth_error t_time) in NE. rewrite E1 in NE. apply nth_map_seq in NE. exact NE. }
  rewrite TT. apply time_error; try assumption.
  - apply ratio_fin; unfold INT_MAX; lia.
  - rewrite (INR_IZR_INZ (Z.to_nat n)), Z2Nat.id by lia. apply ratio_error; lia.
Qed.

Lemma same_nth : forall (out : list Result) (tips : list TipState), Forall2 (same_time acosf) out tips ->
  Forall (fun t : TipState => is_finite (t_time t : float64) = true) tips ->
  forall j r, nth_error out j = Some r -> exists t, nth_error tips j = Some t /\ B2R (r_time r : float64) = B2R (t_time t : float64).
Proof.
  intros out tips F. induction F as [|r t out tips K F IH]; intros FT j x NE; [destruct j; discriminate NE|].
  destruct j as [|j]; [|exact (IH (Forall_inv_tail FT) j x NE)]. injection NE as <-. exists t. split; [reflexivity|].
  exact (proj2 (proj1 K (Forall_inv FT))).
Qed.

Lemma gaps_seq : forall g (f : nat -> R) k j, (forall i, (j <= i < j + k)%nat -> f i <= f (S i) <= f i + g) ->
  gaps_within g (f j) (map f (seq (S j) k)).
Proof.
  intros g f. induction k as [|k IH]; intros j H; [exact I|]. cbn [seq map gaps_within]. split; [apply H; lia|].
  apply IH. intros i I. apply H. lia.
Qed.

Lemma period_bound : forall G n N rate T, 0 <= G -> 1 <= n -> n <= N -> rate_moderate rate ->
  G * rate * (1 - / 8388608) <= n + bpow radix2 (-149) * (rate + 1) ->
  G / n + 2 * (G / 16777216 + T / 9007199254740992 + bpow radix2 (-149)) <= (1 + (N + 2) / 4194304) / rate + T / 4503599627370496.
Proof.
  intros G n N rate T G0 N1 NN [R1 R2] H. set (e := bpow radix2 (-149)) in *.
  assert (R0 : 0 < rate) by lra. set (ri := / rate). assert (RI : rate * ri = 1) by (apply Rinv_r; lra).
  assert (RI0 : 0 < ri) by (apply Rinv_0_lt_compat; exact R0).
  assert (RI1 : bpow radix2 (-100) <= ri).
  { change (-100)%Z with (- (100))%Z. rewrite bpow_opp. apply Rinv_le_contravar; assumption. }
  assert (RI2 : ri <= 1048576) by (rewrite <- (Rinv_inv 1048576); apply Rinv_le_contravar; lra).
  assert (EE : e = / 562949953421312 * bpow radix2 (-100)).
  { unfold e. change (-149)%Z with (-49 + -100)%Z. rewrite bpow_plus. f_equal. }
  assert (E0 : 0 < e) by apply bpow_gt_0.
  assert (E1 : e <= / 562949953421312 * ri) by (rewrite EE; apply Rmult_le_compat_l; lra).
  assert (H1 : G * (1 - / 8388608) <= (n + / 268435456) * ri).
  { replace (G * (1 - / 8388608)) with (G * rate * (1 - / 8388608) * ri) by (rewrite <- (Rmult_1_r (G * (1 - / 8388608))), <- RI; ring).
    apply Rle_trans with ((n + e * (rate + 1)) * ri); [apply Rmult_le_compat_r; lra|].
    replace ((n + e * (rate + 1)) * ri) with (n * ri + e * (rate * ri) + e * ri) by ring. rewrite RI, Rmult_1_r, Rmult_plus_distr_r.
    assert (e * ri <= e * 1048576) by (apply Rmult_le_compat_l; lra). lra. }
  set (ni := / n). assert (NI : n * ni = 1) by (apply Rinv_r; lra). assert (NI0 : 0 < ni) by (apply Rinv_0_lt_compat; lra).
  assert (NI1 : ni <= 1) by (rewrite <- Rinv_1; apply Rinv_le_contravar; lra).
  assert (H2 : G * ni * (1 - / 8388608) <= (1 + / 268435456) * ri).
  { replace (G * ni * (1 - / 8388608)) with (G * (1 - / 8388608) * ni) by ring.
    apply Rle_trans with ((n + / 268435456) * ri * ni); [apply Rmult_le_compat_r; lra|].
    replace ((n + / 268435456) * ri * ni) with (n * ni * ri + / 268435456 * (ri * ni)) by ring. rewrite NI.
    assert (ri * ni <= ri * 1) by (apply Rmult_le_compat_l; lra). lra. }
  assert (H3 : n * ri <= N * ri) by (apply Rmult_le_compat_r; lra). assert (H4 : 1 * ri <= n * ri) by (apply Rmult_le_compat_r; lra).
  unfold Rdiv. fold ri ni. replace ((1 + (N + 2) * / 4194304) * ri) with (ri + (N * ri + 2 * ri) * / 4194304) by ring.
  replace ((n + / 268435456) * ri) with (n * ri + / 268435456 * ri) in H1 by ring.
  set (y := G * ni) in *. set (z := N * ri) in *. set (x := n * ri) in *. clearbody y z x e. clear - H1 H2 H3 H4 E1 RI0 G0. lra.
Qed.

Lemma path_gaps : forall p s a (t0 : float64) b (t1 : float64) n sf out rate N T,
  update_along_path p s a t0 b t1 n = Ret (sf, out) -> (n <= N <= 16777216)%Z ->
  is_finite t0 = true -> is_finite t1 = true -> B2R t0 <= B2R t1 ->
  (exists g : float64, is_finite g = true /\ B2R g = B2R t1 - B2R t0) ->
  Rabs (B2R t0) <= T -> Rabs (B2R t1) <= T -> rate_moderate rate ->
  (B2R t1 - B2R t0) * rate * (1 - / 8388608) <= IZR n + bpow radix2 (-149) * (rate + 1) ->
  gaps_within (float_period rate N T) (B2R t0) (map B2R (map t_time out : list float64)).
Proof.
  intros p s a t0 b t1 n sf out rate N T H NN F0 F1 L (g & FG & EG) B0 B1 RM ST. unfold update_along_path in H.
  destruct (Z.leb_spec INT_MAX n) as [|NI]; [discriminate H|]. apply ret_inj in H.
  apply (path_loop_times acosf _ p s a t0 b t1 n 1) in H. destruct H as [E1 _].
  destruct (Z_le_gt_dec n 0) as [NZ|NZ].
  { replace (Z.to_nat n) with 0%nat in E1 by lia. cbn in E1. destruct out; [exact I|discriminate E1]. }
  set (f := fun j : nat => match j with O => B2R t0 | S _ => B2R (interp_t (A := ieee acosf) t0 t1 (ratio n j) : float64) end).
  assert (EF : map B2R (map t_time out : list float64) = map f (seq 1 (Z.to_nat n))).
  { unfold A in *. refine (eq_trans (f_equal (map B2R) E1) _). rewrite map_map. apply map_ext_in. intros j IN. apply in_seq in IN. destruct j; [lia|reflexivity]. }
  refine (eq_ind_r (fun l => gaps_within _ _ l) _ EF). apply (gaps_seq (float_period rate N T) f (Z.to_nat n) 0). intros i I.
  assert (K : forall j, (j <= Z.to_nat n)%nat -> Rabs (f j - (B2R t0 + B2R g * (INR j / IZR n))) <=
    B2R g / 16777216 + T / 9007199254740992 + bpow radix2 (-149)).
  { assert (G0 : 0 <= B2R g) by (rewrite EG; lra). assert (T0 : 0 <= T) by (eapply Rle_trans; [apply Rabs_pos|exact B0]). pose proof (bpow_gt_0 radix2 (-149)).
    intros j J. destruct j as [|j].
    - cbn [f INR]. unfold Rdiv at 1. rewrite Rmult_0_l, Rmult_0_r, Rplus_0_r, Rminus_eq_0, Rabs_R0. lra.
    - cbn [f]. eapply Rle_trans; [apply (time_error t0 t1 g); try assumption; [apply ratio_fin; unfold INT_MAX; lia|apply ratio_error; lia]|].
      assert (Rmax (Rabs (B2R t0)) (Rabs (B2R t1)) <= T) by (apply Rmax_lub; assumption). lra. }
  pose proof (K i ltac:(lia)) as K0. pose proof (K (S i) ltac:(lia)) as K1. apply Rabs_le_inv in K0, K1.
  split.
  - destruct (interp_t_fin acosf t0 t1 g (ratio n (S i)) F0 F1 L FG EG) as (_ & V1 & V2); [apply ratio_fin; unfold INT_MAX; lia|].
    destruct i as [|i]; [cbn [f]; exact (proj1 V2)|].
    destruct (interp_t_fin acosf t0 t1 g (ratio n (S i)) F0 F1 L FG EG) as (_ & W1 & _); [apply ratio_fin; unfold INT_MAX; lia|].
    unfold f. rewrite V1, W1. apply rnd_le; [reflexivity|]. apply Rplus_le_compat_l. apply rnd_le; [reflexivity|].
    apply Rmult_le_compat_l; [rewrite EG; lra|]. apply ratio_mono; unfold INT_MAX; lia.
  - rewrite <- EG in ST. assert (N1 : 1 <= IZR n) by (apply IZR_le; lia). assert (NN' : IZR n <= IZR N) by (apply IZR_le; lia).
    pose proof (period_bound (B2R g) (IZR n) (IZR N) rate T ltac:(rewrite EG; lra) N1 NN' RM ST) as PB. unfold float_period.
    rewrite S_INR in K1. unfold Rdiv in *. rewrite (Rmult_plus_distr_r (INR i) 1 (/ IZR n)), Rmult_1_l in K1.
    rewrite (Rmult_plus_distr_l (B2R g) (INR i * / IZR n)) in K1. lra.
Qed.

(** *** The invariant of a stroke *)
Definition rated (p : StrokeModelParams) (es : list entry) (c : core) : Prop :=
  inputs_in_order p es c /\
  (@sound_times acosf p (List.concat (map snd es)) -> Sorted (@tick_gap acosf) (map fst es) ->
   forall T, Forall (fun i => Rabs (@time_R acosf i) <= T) (map fst es) ->
   rate_moderate (B2R (sp_rate (p_sampling p) : float64)) -> (sp_max_outputs (p_sampling p) <= 16777216)%Z ->
   exists d out0 rest l, es = (d, out0) :: rest /\ result_times acosf es = @time_R acosf d :: l /\
     gaps_within (float_period (B2R (sp_rate (p_sampling p) : float64)) (sp_max_outputs (p_sampling p)) T) (@time_R acosf d) l /\
     last l (@time_R acosf d) = @time_R acosf (li_input (co_last c))).

Lemma rated_down : forall fuel p m i m' out, upd fuel m i m' OkStatus out -> i_event i = EDown ->
  rated p [(i, out)] (core_of p m' (mkLast i (i_pos i))).
Proof.
  intros fuel p m i m' out U EV. split; [exact (in_order_down fuel p m i m' out U EV)|].
  destruct (upd_down fuel m i m' out U EV) as (q & sm & pred & _ & VI & _ & _ & _ & -> & ->). intros _ _ T _ _ _.
  eexists i, _, [], []. split; [reflexivity|]. split; [reflexivity|]. split; [exact I|]. reflexivity.
Qed.

Lemma tick_ends : forall (a b : Input) (g rt : float64), tick_apart (acosf := acosf) a b -> B2R (i_time a : float64) <= B2R (i_time b : float64) ->
  B2R g = B2R (i_time b : float64) - B2R (i_time a : float64) -> rate_moderate (B2R rt) -> r64 (r32 (B2R g) * B2R rt) <= 0 ->
  B2R (i_time a : float64) = B2R (i_time b : float64).
Proof.
  intros a b g rt TA L EG [R1 R2] H. destruct TA as [E|E]; [exact E|]. exfalso.
  assert (G0 : 0 <= B2R g) by (rewrite EG; apply Rge_le, Rge_minus, Rle_ge; exact L).
  assert (G1 : / 1048576 <= B2R g) by (rewrite EG; refine (Rle_trans _ _ _ E _); apply Req_le, Rabs_pos_eq; rewrite <- EG; exact G0).
  clear E EG L. set (d := B2R g) in *. set (r := B2R rt) in *. clearbody d r.
  assert (D1 : / 1048576 <= r32 d).
  { apply rnd_ge_fmt; [reflexivity| |exact G1]. change (/ 1048576) with (bpow radix2 (-20)). apply fmt_bpow; [reflexivity|lia]. }
  assert (P : / 1099511627776 <= r32 d * r) by (replace (/ 1099511627776) with (/ 1048576 * / 1048576) by lra; apply Rmult_le_compat; lra).
  assert (Q : / 1099511627776 <= r64 (r32 d * r)).
  { apply rnd_ge_fmt; [reflexivity| |exact P]. change (/ 1099511627776) with (bpow radix2 (-40)). apply fmt_bpow; [reflexivity|lia]. }
  lra.
Qed.

Lemma rated_move : forall fuel p m i m' out es lst last', m_params m = Some p -> validate_params p = OkStatus -> comp_params p m ->
  m_last m = Some lst -> rated p es (core_of p m lst) -> upd fuel m i m' OkStatus out -> i_event i = EMove ->
  m_last m' = Some last' -> rated p (es ++ [(i, out)]) (core_of p m' last').
Proof.
  intros fuel p m i m' out es lst last' MP V (C1 & C2 & C3 & C4) ML (J0 & J) U EV ML'.
  split; [exact (in_order_move fuel p m i m' out es lst last' ML J0 U EV ML')|]. intros LO GAP T BT RM MO.
  pose proof J0 as (JV & _ & l & JL). cbn [core_of co_last] in JL.
  destruct (upd_move fuel m i m' out U EV) as (p0 & last0 & w & c & sm & n & tip & tips & pred & lm & MP0 & VI & ML0 & DL & _ & SU & NS & UA & _ & MS & EM).
  rewrite ML in ML0. apply some_inj in ML0. subst last0. rewrite MP in MP0. apply some_inj in MP0. subst p0.
  assert (EL : last' = mkLast i c) by (rewrite EM in ML'; cbn in ML'; apply some_inj in ML'; congruence). subst last'.
  assert (LO2 : @sound_times acosf p (List.concat (map snd es)) /\ @sound_times acosf p out).
  { destruct LO as [LO|LO]; [split; left; exact LO|]. rewrite map_app, concat_app in LO. apply Forall_app in LO. destruct LO as [LA LB].
    cbn [map List.concat snd] in LB. rewrite app_nil_r in LB. split; right; assumption. }
  destruct LO2 as [LOA LOB].
  rewrite map_app in GAP, BT. cbn [map fst] in GAP, BT.
  assert (GAP2 : Sorted (@tick_gap acosf) ((l ++ [li_input lst]) ++ [i])) by (rewrite <- JL; exact GAP).
  apply sorted_init in GAP2. destruct GAP2 as [G1 [(g & FG & EG) TA]]. apply Forall_app in BT. destruct BT as [BT BI]. apply Forall_inv in BI.
  destruct (J LOA ltac:(rewrite JL; exact G1) T BT RM MO) as (d & out0 & rest & l0 & J1 & J2 & J3 & J4). cbn [core_of co_tip co_last] in *.
  assert (IN : In (li_input lst) (map fst es)) by (rewrite JL; apply in_or_app; right; left; reflexivity).
  pose proof (proj1 (Forall_forall _ _) JV _ IN) as VL. pose proof (proj1 (Forall_forall _ _) BT _ IN) as BL.
  apply input_F in VI, VL. destruct VI as (_ & _ & F1), VL as (_ & _ & F0).
  unfold A in DL. cbn [dltb ieee] in DL. apply (ltb_false_R 53 1024) in DL; [|exact F1|exact F0].
  destruct (path_timed acosf _ _ _ _ _ _ _ _ _ UA F0 F1 DL (ex_intro _ g (conj FG EG))) as ((K1 & K2 & K3) & K4 & K5).
  destruct (steps_count _ _ _ _ _ g NS V ltac:(unfold INT_MAX; unfold A in *; lia) F0 F1 DL FG EG) as (N1 & R0 & N2 & N3).
  assert (N2' : (B2R (i_time i : float64) - B2R (i_time (li_input lst) : float64)) * B2R (sp_rate (p_sampling p) : float64) * (1 - / 8388608) <=
    IZR n + bpow radix2 (-149) * (B2R (sp_rate (p_sampling p) : float64) + 1)) by (exact (eq_ind _ (fun z => z * B2R (sp_rate (p_sampling p) : float64) * (1 - / 8388608) <= IZR n + bpow radix2 (-149) * (B2R (sp_rate (p_sampling p) : float64) + 1)) N2 _ EG)).
  pose proof (path_gaps _ _ _ _ _ _ _ _ _ _ _ T UA (conj N1 MO) F0 F1 DL (ex_intro _ g (conj FG EG)) BL BI RM N2') as PG.
  destruct (path_even _ _ _ _ _ _ _ _ _ UA ltac:(unfold A in *; lia) F0 F1 DL (ex_intro _ g (conj FG EG))) as (LEN & _).
  assert (FT : Forall (fun t : TipState => is_finite (t_time t : float64) = true) tips) by (clear - K1; induction tips as [|t tips IH]; [constructor|]; inversion K1; subst; constructor; auto).
  apply (results_timed acosf _ _ _ _ _ _ _ _ _ _ _ _ _ V C3 C4 SU LOB) in MS. destruct (same_times acosf _ _ MS FT) as [M1 M2].
  exists d, out0, (rest ++ [(i, out)]), (l0 ++ map B2R (map t_time tips : list float64)).
  split; [rewrite J1; reflexivity|]. split; [refine (eq_trans (result_times_snoc acosf es i out) _); rewrite J2; cbn [app]; do 2 f_equal; exact M2|]. split.
  - apply gaps_app. split; [exact J3|]. rewrite J4. exact PG.
  - destruct tips as [|t tips].
    + cbn [map]. rewrite app_nil_r, J4. apply (tick_ends _ _ g (sp_rate (p_sampling p))); try assumption. apply N3.
      cbn [List.length] in LEN. lia.
    + rewrite last_app by discriminate. specialize (K5 ltac:(discriminate)). rewrite map_map.
      refine (eq_trans _ K5). apply (last_map' (fun t : TipState (A := A) => B2R (t_time t : float64))).
Qed.

Lemma rated_state : forall fuel hist s es, after_stroke fuel hist s es ->
  exists m rs, run fuel modeler0 hist = Ret (m, rs) /\ tracks s m /\ good m /\ cons m /\
    (forall p last, m_params m = Some p -> m_last m = Some last -> rated p es (core_of p m last)).
Proof.
  intros fuel hist s es AS. refine (after_stroke_state fuel (fun _ => True) rated _ _ _ hist s es AS (call_in_true hist)).
  - intros p m i m' out _ MP V G U EV. exact (rated_down fuel p m i m' out U EV).
  - intros p m i m' out is lst last' _ MP V G CP ML J U EV ML'. exact (rated_move fuel p m i m' out is lst last' MP V CP ML J U EV ML').
  - intros p m i m' out is lst e _ MP V G CP ML J U NE. inversion U; subst; try congruence; exact J.
Qed.
End FRate.

(** ** Theorems *)
(** Sound times (mitigation off, or no NaN), inputs simultaneous or at least 2^-20 s apart with exact time
    differences: consecutive results of the stroke are at most one sampling period
    (and a little more) apart, from the Down to the last input. *)
Theorem C22_float_stroke_rate : forall acosf (A := ieee acosf) fuel hist s (p : StrokeModelParams (A := ieee acosf)) (i0 : Input (A := ieee acosf)) es T,
  after_stroke fuel hist s es -> ps_params s = Some p -> ps_last s = Some i0 ->
  sound_times p (List.concat (map snd es)) -> Sorted tick_gap (map fst es) ->
  Forall (fun i => Rabs (time_R i) <= T) (map fst es) ->
  rate_moderate (B2R (sp_rate (p_sampling p) : float64)) -> (sp_max_outputs (p_sampling p) <= 16777216)%Z ->
  exists d out0 rest l, es = (d, out0) :: rest /\ map result_R (List.concat (map snd es)) = time_R d :: l /\
    gaps_within (float_period (B2R (sp_rate (p_sampling p) : float64)) (sp_max_outputs (p_sampling p)) T) (time_R d) l /\
    last l (time_R d) = time_R i0.
Proof.
  intros acosf A fuel hist s p i0 es T AS P PL LO GAP BT RM MO. subst A.
  destruct (rated_state acosf fuel hist s es AS) as (m & rs & R & (T1 & T2 & _) & G & C & K).
  rewrite PL in T2. destruct (m_last m) as [lst|] eqn:ML; [|discriminate T2]. apply some_inj in T2.
  destruct (K p lst ltac:(congruence) eq_refl) as (_ & J). destruct (J LO GAP T BT RM MO) as (d & out0 & rest & l & J1 & J2 & J3 & J4).
  exists d, out0, rest, l. cbn [core_of co_last] in J4. rewrite <- T2 in J4. auto.
Qed.

(** A Move: evenly spaced up to rounding, and as many as the rate asks for. *)
Theorem C22_float_move_evenly_spaced : forall acosf (A := ieee acosf) fuel hist s (p : StrokeModelParams (A := ieee acosf)) (l i : Input (A := ieee acosf)) rs out,
  after fuel hist s -> ps_params s = Some p -> ps_last s = Some l -> i_event i = EMove ->
  sound_times p out -> exact_gap l i -> (sp_max_outputs (p_sampling p) <= 16777216)%Z ->
  answers fuel hist [CUpdate i rs] = Ret [RResults OkStatus (rs ++ out)] ->
  let rate := B2R (sp_rate (p_sampling p) : float64) in
  nearly_even (time_R l) (time_R i) out /\
  (time_R i - time_R l) * rate * (1 - / 8388608) <= INR (List.length out) + bpow radix2 (-149) * (rate + 1).
Proof.
  intros acosf A fuel hist s p l i rs out AF P PL EV LO (g & FG & EG) MO AN rate. subst A.
  destruct (accepted_update _ _ _ _ _ _ _ AF AN) as (m & r0 & m' & o & R & (T1 & T2 & _) & G & C & K & U & _).
  apply app_inv_head in K. subst o.
  destruct (upd_move _ _ _ _ _ U EV) as (p0 & lst & w & c & sm & n & tip & tips & pred & lm & MP & VI & ML & DL & WU & SU & NS & UA & UP & MS & EM).
  assert (p0 = p) by congruence. subst p0. assert (EL : l = li_input lst) by (rewrite ML, PL in T2; apply some_inj in T2; exact T2). subst l.
  destruct (last_valid_run fuel hist _ _ _ last_valid0 R) as [LV _]. specialize (LV _ ML).
  apply input_F in VI, LV. destruct VI as (_ & _ & F1), LV as (_ & _ & F0).
  cbn [dltb ieee] in DL. apply (ltb_false_R 53 1024) in DL; [|exact F1|exact F0].
  destruct (path_timed acosf _ _ _ _ _ _ _ _ _ UA F0 F1 DL (ex_intro _ g (conj FG EG))) as ((K1 & K2 & K3) & K4 & K5).
  destruct (steps_count acosf _ _ _ _ _ g NS (g_valid _ G p MP) ltac:(unfold INT_MAX; lia) F0 F1 DL FG EG) as (N1 & R0 & N2 & _).
  destruct (path_even acosf _ _ _ _ _ _ _ _ _ UA ltac:(lia) F0 F1 DL (ex_intro _ g (conj FG EG))) as (LEN & EV2).
  destruct (C p MP ltac:(left; congruence)) as (C1 & C2 & C3 & C4). apply (results_timed acosf _ _ _ _ _ _ _ _ _ _ _ _ _ (g_valid _ G p MP) C3 C4 SU LO) in MS.
  assert (FT : Forall (fun t : TipState (A := ieee acosf) => is_finite (t_time t : float64) = true) tips) by (clear - K1; induction tips as [|t tips IH]; [constructor|]; inversion K1; subst; constructor; auto).
  assert (LO2 : List.length out = Z.to_nat n) by (rewrite <- LEN; clear - MS; induction MS; cbn; congruence).
  split.
  - intros j r NE. destruct (same_nth acosf _ _ MS FT j r NE) as (t & NT & ET). unfold result_R. rewrite ET, LO2. exact (EV2 j t NT).
  - unfold time_R. rewrite <- EG. refine (Rle_trans _ _ _ N2 _). apply Rplus_le_compat_r. rewrite LO2, INR_IZR_INZ. apply IZR_le. lia.
Qed.
(** The first part of what an Up produces (the rest is the modeled end of the stroke). *)
Theorem C22_float_up_evenly_spaced : forall acosf (A := ieee acosf) fuel hist s (p : StrokeModelParams (A := ieee acosf)) (l i : Input (A := ieee acosf)) rs out,
  after fuel hist s -> ps_params s = Some p -> ps_last s = Some l -> i_event i = EUp ->
  sound_times p out -> exact_gap l i -> (sp_max_outputs (p_sampling p) <= 16777216)%Z ->
  answers fuel hist [CUpdate i rs] = Ret [RResults OkStatus (rs ++ out)] ->
  let rate := B2R (sp_rate (p_sampling p) : float64) in
  exists path rest, out = path ++ rest /\ nearly_even (time_R l) (time_R i) path /\
  (time_R i - time_R l) * rate * (1 - / 8388608) <= INR (List.length path) + bpow radix2 (-149) * (rate + 1).
Proof.
  intros acosf A fuel hist s p l i rs out AF P PL EV LO (g & FG & EG) MO AN rate. subst A.
  destruct (accepted_update _ _ _ _ _ _ _ AF AN) as (m & r0 & m' & o & R & (T1 & T2 & _) & G & C & K & U & _).
  apply app_inv_head in K. subst o.
  destruct (upd_up _ _ _ _ _ U EV) as (p0 & lst & n & tip1 & tips1 & tip2 & tips2 & sm & lm & MP & VI & ML & DL & NS & UA & ME & SU & MS & _).
  assert (p0 = p) by congruence. subst p0. assert (EL : l = li_input lst) by (rewrite ML, PL in T2; apply some_inj in T2; exact T2). subst l.
  destruct (last_valid_run fuel hist _ _ _ last_valid0 R) as [LV _]. specialize (LV _ ML).
  apply input_F in VI, LV. destruct VI as (_ & _ & F1), LV as (_ & _ & F0).
  cbn [dltb ieee] in DL. apply (ltb_false_R 53 1024) in DL; [|exact F1|exact F0].
  destruct (path_timed acosf _ _ _ _ _ _ _ _ _ UA F0 F1 DL (ex_intro _ g (conj FG EG))) as ((K1 & K2 & K3) & K4 & K5).
  destruct (steps_count acosf _ _ _ _ _ g NS (g_valid _ G p MP) ltac:(unfold INT_MAX; lia) F0 F1 DL FG EG) as (N1 & R0 & N2 & _).
  destruct (path_even acosf _ _ _ _ _ _ _ _ _ UA ltac:(lia) F0 F1 DL (ex_intro _ g (conj FG EG))) as (LEN & EV2).
  destruct (C p MP ltac:(left; congruence)) as (C1 & C2 & C3 & C4). apply (results_timed acosf _ _ _ _ _ _ _ _ _ _ _ _ _ (g_valid _ G p MP) C3 C4 SU LO) in MS.
  assert (FT : Forall (fun t : TipState (A := ieee acosf) => is_finite (t_time t : float64) = true) tips1) by (clear - K1; induction tips1 as [|t tips IH]; [constructor|]; inversion K1; subst; constructor; auto).
  assert (TP : exists tips3, (match tips1 ++ tips2 with [] => [tip2] | l => l end) = tips1 ++ tips3).
  { destruct (tips1 ++ tips2) as [|t q] eqn:EQ; [|exists tips2; symmetry; exact EQ].
    apply app_eq_nil in EQ. destruct EQ as [-> _]. exists [tip2]. reflexivity. }
  destruct TP as (tips3 & TP). rewrite TP in MS. apply Forall2_app_inv_r in MS. destruct MS as (path & rest & MS & _ & ->).
  assert (LO2 : List.length path = Z.to_nat n) by (rewrite <- LEN; clear - MS; induction MS; cbn; congruence).
  exists path, rest. split; [reflexivity|]. split.
  - intros j r NE. destruct (same_nth acosf _ _ MS FT j r NE) as (t & NT & ET). unfold result_R. rewrite ET, LO2. exact (EV2 j t NT).
  - unfold time_R. rewrite <- EG. refine (Rle_trans _ _ _ N2 _). apply Rplus_le_compat_r. rewrite LO2, INR_IZR_INZ. apply IZR_le. lia.
Qed.
