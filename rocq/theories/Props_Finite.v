(** * C49: results are finite numbers (IEEE arithmetic). *)
From Coq Require Import ZArith Bool List Sorted Reals Lra Lia Psatz.
From Flocq Require Import Core.Core IEEE754.BinarySingleNaN Relative Plus_error.
From Verif Require Export Filter Props_Valid.
Import ListNotations.
Open Scope R_scope.

(** ** Specification *)
(** [x] is a finite number of size at most [b]. *)
Definition fin_le (b : R) (x : float32) : Prop := is_finite x = true /\ Rabs (B2R x) <= b.

(** A spring and drag of moderate size that the sampling rate can follow. *)
Record steady {acosf : float32 -> float32} (pp : PositionParams (A := ieee acosf)) (rate : R) : Prop := mkSteady {
  sd_spring : is_finite (pp_spring pp : float32) = true /\ / 1048576 <= B2R (pp_spring pp : float32) <= 1048576;
  sd_drag : is_finite (pp_drag pp : float32) = true /\ 0 < B2R (pp_drag pp : float32);
  sd_rate : 1 <= rate <= 16384;
  sd_drag_rate : 2 * B2R (pp_drag pp : float32) <= rate;
  sd_spring_rate : 2 <= rate * (B2R (pp_spring pp : float32) * B2R (pp_drag pp : float32))
}.

(** A steady spring, at most 2^20 results per call; and if mitigation is on, its bounds
    are finite (the code accepts infinities and NaN). *)
Definition steady_params {acosf : float32 -> float32} (p : StrokeModelParams (A := ieee acosf)) : Prop :=
  steady (p_position p) (B2R (sp_rate (p_sampling p) : float64)) /\
  (sp_max_outputs (p_sampling p) <= 1048576)%Z /\
  let l := pp_loop (p_position p) in
  (lp_enabled l = true -> is_finite (lp_speed_lower l : float32) = true /\ is_finite (lp_speed_upper l : float32) = true /\
     is_finite (lp_strength_lower l : float32) = true /\ is_finite (lp_strength_upper l : float32) = true).

(** An input of moderate size: coordinates up to 2^30, time up to 2^31 (68 years, in
    seconds), the other quantities up to 2^100 (they are usually below 10). *)
Definition moderate_input {acosf : float32 -> float32} (i : Input (A := ieee acosf)) : Prop :=
  (fin_le (bpow radix2 30) (vx (i_pos i)) /\ fin_le (bpow radix2 30) (vy (i_pos i))) /\
  (is_finite (i_time i : float64) = true /\ Rabs (B2R (i_time i : float64)) <= 2147483648) /\
  fin_le (bpow radix2 100) (i_pressure i) /\ fin_le (bpow radix2 100) (i_tilt i) /\ fin_le (bpow radix2 100) (i_orient i).
(** Simultaneous, or at least 2^-20 (a microsecond) apart. *)
Definition tick_apart {acosf : float32 -> float32} (a b : Input (A := ieee acosf)) : Prop :=
  B2R (i_time a : float64) = B2R (i_time b : float64) \/ / 1048576 <= Rabs (B2R (i_time b : float64) - B2R (i_time a : float64)).
(** Consecutive accepted inputs: also, the time between them is itself a double. *)
Definition tick_gap {acosf : float32 -> float32} (a b : Input (A := ieee acosf)) : Prop := exact_gap a b /\ tick_apart a b.
(** What smoothing needs as well: a timeout between a millisecond and 2^20 s, coordinates
    up to 2^26 (67 million), and, if consecutive inputs are at most [g] apart, at most
    2^18 * timeout / (timeout + g) inputs. *)
Definition smoothing_within {acosf : float32 -> float32} (p : StrokeModelParams (A := ieee acosf)) (g : R) (accepted : list (Input (A := ieee acosf))) : Prop :=
  let timeout := B2R (wp_timeout (p_wobble p) : float64) in
  (/ 1024 <= timeout <= 1048576) /\ 0 <= g /\
  Forall (fun i : Input (A := ieee acosf) => fin_le (bpow radix2 26) (vx (i_pos i)) /\ fin_le (bpow radix2 26) (vy (i_pos i))) accepted /\
  Sorted (fun a b : Input (A := ieee acosf) => B2R (i_time b : float64) - B2R (i_time a : float64) <= g) accepted /\
  INR (List.length accepted) * (timeout + g) <= 262144 * timeout.
(** When smoothing is on, that holds and no rejected Move has left a trace. *)
Definition smoothable {acosf : float32 -> float32} (p : StrokeModelParams (A := ieee acosf)) (accepted seen : list (Input (A := ieee acosf))) : Prop :=
  wp_enabled (p_wobble p) = true -> seen = accepted /\ exists g, smoothing_within p g accepted.
(** The inputs of a stroke: the accepted ones, and those including the rejected Moves that leave a trace. *)
Definition moderate_inputs {acosf : float32 -> float32} (p : StrokeModelParams (A := ieee acosf)) (accepted seen : list (Input (A := ieee acosf))) : Prop :=
  Forall moderate_input seen /\ Sorted tick_apart seen /\ Sorted tick_gap accepted /\ smoothable p accepted seen.

(** Every number in the result is finite. *)
Definition all_finite {acosf : float32 -> float32} (r : Result (A := ieee acosf)) : Prop :=
  (is_finite (vx (r_pos r) : float32) = true /\ is_finite (vy (r_pos r) : float32) = true) /\
  (is_finite (vx (r_vel r) : float32) = true /\ is_finite (vy (r_vel r) : float32) = true) /\
  (is_finite (vx (r_acc r) : float32) = true /\ is_finite (vy (r_acc r) : float32) = true) /\
  is_finite (r_time r : float64) = true /\
  is_finite (r_pressure r : float32) = true /\ is_finite (r_tilt r : float32) = true /\ is_finite (r_orient r : float32) = true.

(** ** Proof *)
(** *** How far the energy can grow in [k] steps *)
Fixpoint grow (k : nat) : R := match k with O => 1 | S k' => let r := grow k' + 8589934592 in r + / 262144 * r + 256 end.
Lemma grow_1 : forall k, 1 <= grow k.
Proof. induction k as [|k IH]; cbn [grow]; lra. Qed.
Lemma grow_S : forall k, grow k <= grow (S k).
Proof. intros k. pose proof (grow_1 k). cbn [grow]. lra. Qed.
Lemma grow_le : forall j k, (j <= k)%nat -> grow j <= grow k.
Proof. intros j k H. induction H as [|k H IH]; [lra|]. eapply Rle_trans; [exact IH|apply grow_S]. Qed.
Lemma grow_exp : forall k, grow k <= exp (/ 262144 * INR k) * (1 + 17179869184 * INR k).
Proof.
  induction k as [|k IH].
  - cbn [grow INR]. rewrite !Rmult_0_r, exp_0. lra.
  - rewrite S_INR. set (n := INR k) in *. assert (N : 0 <= n) by apply pos_INR.
    replace (/ 262144 * (n + 1)) with (/ 262144 * n + / 262144) by ring. rewrite exp_plus. cbn [grow].
    assert (E1 : 1 + / 262144 <= exp (/ 262144)) by (left; apply exp_ineq1; lra).
    assert (E2 : 1 <= exp (/ 262144 * n)) by (pose proof (exp_ineq1_le (/ 262144 * n)); lra).
    set (e := exp (/ 262144 * n)) in *. set (d := exp (/ 262144)) in *.
    assert (B : grow k + 8589934592 + / 262144 * (grow k + 8589934592) + 256 <= (1 + / 262144) * (grow k + 17179869184)) by lra.
    eapply Rle_trans; [exact B|].
    assert (C : grow k + 17179869184 <= e * (1 + 17179869184 * (n + 1))).
    { replace (e * (1 + 17179869184 * (n + 1))) with (e * (1 + 17179869184 * n) + 17179869184 * e) by ring. lra. }
    pose proof (grow_1 k). replace (e * d * (1 + 17179869184 * (n + 1))) with (d * (e * (1 + 17179869184 * (n + 1)))) by ring.
    apply Rmult_le_compat; lra.
Qed.
(** The number of steps for which this is of use. *)
Definition many : nat := Z.to_nat 1310720.
Lemma grow_many : forall k, (k <= many)%nat -> grow k <= 36893488147419103232.
Proof.
  intros k H. eapply Rle_trans; [apply grow_exp|].
  assert (N : INR k <= 1310720).
  { replace 1310720 with (INR many); [apply le_INR; exact H|]. unfold many. rewrite INR_IZR_INZ, Z2Nat.id; [reflexivity|lia]. }
  assert (N0 : 0 <= INR k) by apply pos_INR.
  assert (E : exp (/ 262144 * INR k) <= 243).
  { apply Rle_trans with (exp 5); [destruct (Req_dec (/ 262144 * INR k) 5) as [->|Q]; [lra|left; apply exp_increasing; lra]|].
    replace 5 with (1 + (1 + (1 + (1 + 1)))) by ring. rewrite !exp_plus. pose proof exp_le_3. pose proof (exp_pos 1). set (e := exp 1) in *.
    assert (e * e <= 9) by nra. assert (e * (e * e) <= 27) by nra. assert (e * (e * (e * e)) <= 81) by nra. nra. }
  pose proof (exp_pos (/ 262144 * INR k)). apply Rle_trans with (243 * (1 + 17179869184 * 1310720)); [|lra].
  apply Rmult_le_compat; lra.
Qed.

Section Finite.
Variable acosf : float32 -> float32.
Let A := ieee acosf.
Local Existing Instance A.

(** *** Tips *)
Definition vec_le (b : R) (v : Vec2) : Prop := fin_le b (vx v) /\ fin_le b (vy v).
(** A tip after [k] steps. *)
Definition lively (sg : R) (k : nat) (t : TipState) : Prop :=
  (exists ax ay, Rabs ax <= 4294967296 /\ Rabs ay <= 4294967296 /\
    energy sg (vx (t_pos t)) (vx (t_vel t)) ax (grow k) /\ energy sg (vy (t_pos t)) (vy (t_vel t)) ay (grow k)) /\
  vec_le (IZR (2 ^ 93)) (t_acc t).
Lemma energy_le : forall sg x v a r r', energy sg x v a r -> 0 <= r <= r' -> energy sg x v a r'.
Proof. intros sg x v a r r' (F1 & F2 & H) L. split; [exact F1|]. split; [exact F2|]. eapply Rle_trans; [exact H|]. apply Rmult_le_compat; lra. Qed.
Lemma lively_le : forall sg j k t, lively sg j t -> (j <= k)%nat -> lively sg k t.
Proof.
  intros sg j k t [(ax & ay & H1 & H2 & H3 & H4) H5] L. split; [|exact H5]. exists ax, ay. pose proof (grow_le j k L). pose proof (grow_1 j).
  repeat split; try assumption; try apply H3; try apply H4; eapply energy_le; try eassumption; lra.
Qed.
Lemma step_move : forall sg s d dl (x v a : float32) b k, step_ok s d dl sg -> (S k <= many)%nat -> fin_le 4294967296 a -> Rabs b <= 4294967296 ->
  energy sg x v b (grow k) ->
  fin_le (IZR (2 ^ 93)) (acc1 s d x v a) /\ energy sg (pos1 s d dl x v a) (vel1 s d dl x v a) (B2R a) (grow (S k)).
Proof.
  intros sg s d dl x v a b k ST K [FA BA] BB EN. pose proof (grow_1 k) as G1. pose proof (grow_many k ltac:(lia)) as G2.
  assert (EN2 : energy sg x v (B2R a) (grow k + 8589934592)).
  { eapply energy_anchor; [exact EN|lra|]. unfold Rminus. eapply Rle_trans; [apply Rabs_triang|]. rewrite Rabs_Ropp. lra. }
  destruct (spring_step s d dl x v a sg (grow k + 8589934592) ST FA BA ltac:(lra) ltac:(lra) EN2) as (K1 & K2 & K3).
  split; [split; assumption|]. exact K3.
Qed.
Lemma tip_lively : forall sg p t anchor (time : float64) k, lively sg k t -> vec_le 4294967296 anchor -> (S k <= many)%nat ->
  step_ok (pp_spring p) (pp_drag p) (d2f (dsub time (t_time t))) sg -> lively sg (S k) (tip_update p t anchor time).
Proof.
  intros sg p t anchor time k [(ax & ay & B1 & B2 & E1 & E2) _] [A1 A2] K ST.
  destruct (step_move _ _ _ _ _ _ _ _ _ ST K A1 B1 E1) as [C1 D1]. destruct (step_move _ _ _ _ _ _ _ _ _ ST K A2 B2 E2) as [C2 D2].
  split; [|split; [exact C1|exact C2]]. exists (B2R (vx anchor : float32)), (B2R (vy anchor : float32)).
  split; [apply A1|]. split; [apply A2|]. split; [exact D1|exact D2].
Qed.
Lemma lively_bounds : forall sg k t, / 1024 <= sg <= 1024 -> (k <= many)%nat -> lively sg k t ->
  vec_le (IZR (2 ^ 76)) (t_pos t) /\ vec_le (IZR (2 ^ 76)) (t_vel t) /\ vec_le (IZR (2 ^ 93)) (t_acc t).
Proof.
  intros sg k t SG K [(ax & ay & B1 & B2 & E1 & E2) AC]. pose proof (grow_1 k). pose proof (grow_many k K) as GM.
  assert (Q : forall (x v : float32) a, Rabs a <= 4294967296 -> energy sg x v a (grow k) -> fin_le (IZR (2 ^ 76)) x /\ fin_le (IZR (2 ^ 76)) v).
  { intros x v a BA E. destruct (energy_bounds sg x v a (grow k) ltac:(lra) ltac:(lra) E) as [Q1 Q2]. destruct E as (F1 & F2 & _).
    change (IZR (2 ^ 76)) with 75557863725914323419136. split; split; try assumption.
    - replace (B2R x) with ((B2R x - a) + a) by ring. eapply Rle_trans; [apply Rabs_triang|]. lra.
    - pose proof (Rabs_pos (B2R v)). apply Rle_trans with (1024 * (sg * Rabs (B2R v))); [|lra]. assert (1 <= 1024 * sg) by lra. nra. }
  destruct (Q _ _ _ B1 E1) as [Q1 Q2]. destruct (Q _ _ _ B2 E2) as [Q3 Q4]. split; [split; assumption|]. split; [split; assumption|exact AC].
Qed.

(** ** The length of a step *)
(** Two roundings of a difference that is not negative. *)
Lemma delta_le : forall (a b : float64) c, is_finite a = true -> is_finite b = true -> 0 <= B2R b - B2R a <= c -> c <= 1048576 ->
  fin_le (2 * c + / 1073741824) (d2f (dsub b a)) /\ 0 <= B2R (d2f (dsub b a) : float32) <= (c + eta) * (1 + / 1048576) + eta.
Proof.
  intros a b c FA FB [L1 L2] LC. unfold A. cbn [d2f dsub ieee]. pose proof eta_pos as T0. pose proof eta_small as T1.
  assert (SM : forall z, Rabs z <= 4194304 -> small64 z) by (intros z H; apply small_le64; eapply Rle_trans; [exact H|apply IZR_le; lia]).
  destruct (minus_fin 53 1024 _ _ b a FB FA) as [F1 E1]; [apply SM; rewrite Rabs_pos_eq; lra|].
  pose proof (r64_error (B2R b - B2R a)) as R1. rewrite (Rabs_pos_eq (B2R b - B2R a)) in R1 by lra.
  assert (P1 : 0 <= r64 (B2R b - B2R a)) by (apply rnd_ge0; [reflexivity|lra]).
  assert (U1 : r64 (B2R b - B2R a) <= c * (1 + u53) + eta).
  { apply Rabs_le_inv in R1. assert (u53 * (B2R b - B2R a) <= u53 * c) by (apply Rmult_le_compat_l; [unfold u53|]; lra). lra. }
  rewrite <- E1 in *. set (m := Bminus mode_NE b a) in *.
  assert (SM32 : Rabs (B2R m) <= IZR (2 ^ 127)).
  { rewrite Rabs_pos_eq by exact P1. apply Rle_trans with 4194304; [unfold u53 in U1; lra|apply IZR_le; lia]. }
  destruct (d2f_fin m F1 (small_le32 _ SM32)) as [F2 E2].
  pose proof (r32_error (B2R m)) as R2. rewrite (Rabs_pos_eq (B2R m)) in R2 by exact P1. apply Rabs_le_inv in R2.
  assert (P2 : 0 <= r32 (B2R m)) by (apply rnd_ge0; [reflexivity|exact P1]).
  unfold u53, u24 in *. assert (U2 : r32 (B2R m) <= (c + eta) * (1 + / 1048576) + eta) by lra.
  split; [split; [exact F2|]|rewrite E2; split; [exact P2|exact U2]]. rewrite E2, Rabs_pos_eq by exact P2. lra.
Qed.

(** The requested number of samples is at least the length of the segment times the rate. *)
Lemma steps_rate : forall tip a b sp pp n, number_of_steps tip a b sp pp = Ret (IOk n) -> (sp_max_outputs sp < INT_MAX)%Z ->
  (n <= sp_max_outputs sp)%Z /\
  (is_finite (dmul (f2d (d2f (dsub (i_time b) (i_time a)))) (sp_rate sp) : float64) = true ->
   B2R (dmul (f2d (d2f (dsub (i_time b) (i_time a)))) (sp_rate sp) : float64) <= IZR n).
Proof.
  intros tip a b sp pp n NS MO. unfold number_of_steps in NS. set (x := dmul (f2d (d2f (dsub (i_time b) (i_time a)))) (sp_rate sp)) in *.
  destruct (dtoint _) as [z|] eqn:Z in NS; cbn [to_int] in NS; [|discriminate NS].
  destruct (absolute_angle_to _ _) in NS; [|discriminate NS].
  assert (FIN : forall k, (if Z.ltb (sp_max_outputs sp) k then Ret (IErr (InvalidArgument msg_too_far)) else Ret (IOk k)) = Ret (IOk n) -> k = n /\ (n <= sp_max_outputs sp)%Z).
  { intros k. destruct (Z.ltb_spec (sp_max_outputs sp) k); intros Q; apply ret_inj in Q; [discriminate Q|]. assert (k = n) by congruence. split; [assumption|lia]. }
  assert (NZ : (z <= n <= sp_max_outputs sp)%Z).
  { destruct (dltb d0 (sp_max_angle sp)) in NS.
    - unfold to_int in NS. destruct (dtoint _) as [z2|] in NS; [|discriminate NS]. apply FIN in NS. destruct (Z.ltb_spec z z2); lia.
    - apply FIN in NS. lia. }
  split; [lia|]. intros FX. clearbody x. unfold A in *. cbn [dtoint dceil dofZ ieee] in Z. unfold std_dmin in Z. cbn [dltb ieee] in Z.
  destruct (ofZ_64 INT_MAX) as [I1 I2]; [reflexivity|]. set (M := binary_normalize 53 1024 _ _ mode_NE INT_MAX 0 false) in *.
  destruct (Bltb M (Bnearbyint mode_UP (x : float64))) eqn:E.
  - apply (to_int_some 53 1024) in Z; [|exact _]. destruct Z as (_ & Z & _). rewrite I2, Ztrunc_IZR in Z. lia.
  - apply (to_int_some 53 1024) in Z; [|exact _]. destruct Z as (_ & Z & _). destruct (ceil_fin 53 1024 _ (x : float64) FX) as [_ CE].
    rewrite CE, Ztrunc_IZR in Z. subst z. eapply Rle_trans; [apply Zceil_ub|]. apply IZR_le. lia.
Qed.

(** Consecutive samples are at most about one sampling period apart. *)
Record span (t0 t1 : float64) (rate : R) (n : Z) : Prop := mkSpan {
  sp_fin : is_finite t0 = true /\ is_finite t1 = true;
  sp_abs : Rabs (B2R t0) <= 2147483648 /\ Rabs (B2R t1) <= 2147483648;
  sp_ord : B2R t0 <= B2R t1;
  sp_gap : exists g : float64, is_finite g = true /\ B2R g = B2R t1 - B2R t0;
  sp_n : (n <= 1048576)%Z;
  sp_rate' : 1 <= rate <= 16384;
  sp_steps : (B2R t1 - B2R t0) * (rate * (1 - / 1048576)) <= IZR n + / 1048576
}.
Lemma ratio_step : forall n j, (Z.of_nat (S j) <= n)%Z -> (1 <= n <= 1048576)%Z ->
  B2R (ratio n (S j)) - B2R (ratio n j) <= / IZR n + / 16777216.
Proof.
  intros n j J N. destruct (ratio_fin n (S j) J ltac:(unfold INT_MAX; lia)) as (_ & E1 & _). destruct (ratio_fin n j ltac:(lia) ltac:(unfold INT_MAX; lia)) as (_ & E2 & _).
  assert (EX : forall z, (0 <= z <= 1048576)%Z -> r32 (IZR z) = IZR z) by (intros z Z; apply rnd_id; apply (fmt_IZR 24 128 z); [lia|]; rewrite Z.abs_eq by lia; lia).
  rewrite !INR_IZR_INZ in *. rewrite !EX in E1, E2 by lia. rewrite E1, E2. clear E1 E2.
  assert (N0 : 1 <= IZR n) by (apply IZR_le; lia). assert (NI : 0 < / IZR n) by (apply Rinv_0_lt_compat; lra).
  assert (Q : forall k, (Z.of_nat k <= n)%Z -> Rabs (r32 (IZR (Z.of_nat k) / IZR n) - IZR (Z.of_nat k) / IZR n) <= bpow radix2 (-25)).
  { intros k K. apply error_32. unfold Rdiv. rewrite Rabs_pos_eq.
    - apply Rmult_le_reg_r with (IZR n); [lra|]. rewrite Rmult_assoc, Rinv_l by lra. rewrite Rmult_1_r, Rmult_1_l. apply IZR_le. exact K.
    - apply Rmult_le_pos; [apply IZR_le; lia|lra]. }
  pose proof (Q (S j) J) as Q1. pose proof (Q j ltac:(lia)) as Q2. apply Rabs_le_inv in Q1, Q2.
  change (bpow radix2 (-25)) with (/ 33554432) in *. rewrite Nat2Z.inj_succ, succ_IZR in *. unfold Rdiv in *.
  set (q := IZR (Z.of_nat j)) in *. set (i := / IZR n) in *. replace ((q + 1) * i) with (q * i + i) in * by ring. lra.
Qed.
Lemma sample_gap : forall (t0 t1 : float64) rate n j, span t0 t1 rate n -> (Z.of_nat (S j) <= n)%Z ->
  0 <= B2R (interp_t t0 t1 (ratio n (S j)) : float64) - B2R (interp_t t0 t1 (ratio n j) : float64) <= 9 / 8 / rate.
Proof.
  intros t0 t1 rate n j [[F0 F1] [B0 B1] OR (g & FG & EG) NN RT ST] J.
  assert (N : (1 <= n < INT_MAX)%Z) by (unfold INT_MAX; lia).
  destruct (ratio_fin n (S j) J ltac:(lia)) as (U1 & _). destruct (ratio_fin n j ltac:(lia) ltac:(lia)) as (U0 & _).
  destruct (interp_t_fin acosf t0 t1 g _ F0 F1 OR FG EG U1) as (_ & E1 & L1). destruct (interp_t_fin acosf t0 t1 g _ F0 F1 OR FG EG U0) as (_ & E0 & L0).
  pose proof (ratio_mono n j (S j) ltac:(lia) J ltac:(lia)) as MO. pose proof (ratio_step n j J ltac:(lia)) as RS.
  destruct U1 as (_ & P1), U0 as (_ & P0). set (r1 := B2R (ratio n (S j))) in *. set (r0 := B2R (ratio n j)) in *.
  unfold A. fold (interp_t (A := ieee acosf) t0 t1 (ratio n (S j))). rewrite E1, E0. clear E1 E0 L1 L0.
  assert (G0 : 0 <= B2R g) by lra. set (G := B2R g) in *. pose proof eta_pos as T0. pose proof eta_small as T1.
  assert (M : forall q, 0 <= q <= 1 -> 0 <= r64 (G * q) <= G /\ Rabs (r64 (G * q) - G * q) <= u53 * G + eta).
  { intros q Q. assert (0 <= G * q <= G) by nra. split.
    - split; [apply rnd_ge0; [reflexivity|lra]|apply rnd_le_fmt; [reflexivity|apply fmt_B2R|lra]].
    - eapply Rle_trans; [apply r64_error|]. rewrite (Rabs_pos_eq (G * q)) by lra. unfold u53. lra. }
  destruct (M r1 P1) as [M1 M1']. destruct (M r0 P0) as [M0 M0'].
  set (m1 := r64 (G * r1)) in *. set (m0 := r64 (G * r0)) in *.
  assert (MM : m0 <= m1) by (apply rnd_le; [reflexivity|]; apply Rmult_le_compat_l; [exact G0|exact MO]).
  assert (TB : forall m, 0 <= m <= G -> Rabs (B2R t0 + m) <= 2147483648).
  { intros m H. apply Rabs_le_inv in B0, B1. apply Rabs_le. lra. }
  assert (TE : forall m, 0 <= m <= G -> Rabs (r64 (B2R t0 + m) - (B2R t0 + m)) <= / 4194304 + eta).
  { intros m H. eapply Rle_trans; [apply r64_error|]. pose proof (TB m H). unfold u53. lra. }
  pose proof (TE m1 M1) as T1'. pose proof (TE m0 M0) as T0'. apply Rabs_le_inv in T1', T0', M1', M0'.
  split.
  - assert (r64 (B2R t0 + m0) <= r64 (B2R t0 + m1)) by (apply rnd_le; [reflexivity|lra]). lra.
  - assert (DN : G * (r1 - r0) <= G * (/ IZR n + / 16777216)) by (apply Rmult_le_compat_l; lra).
    assert (N1 : 1 <= IZR n) by (apply IZR_le; lia). assert (N2 : IZR n <= 1048576) by (apply IZR_le; lia).
    set (ri := / rate) in *. assert (RI : rate * ri = 1) by (apply Rinv_r; lra). assert (RI0 : / 16384 <= ri) by (apply Rinv_le_contravar; lra).
    assert (GR : G * (1 - / 1048576) <= (IZR n + / 1048576) * ri).
    { rewrite EG. replace ((B2R t1 - B2R t0) * (1 - / 1048576)) with ((B2R t1 - B2R t0) * (rate * (1 - / 1048576)) * ri) by (rewrite <- (Rmult_1_r ((B2R t1 - B2R t0) * (1 - / 1048576))), <- RI; ring).
      apply Rmult_le_compat_r; lra. }
    set (ni := / IZR n) in *. assert (NI : IZR n * ni = 1) by (apply Rinv_r; lra). assert (NI0 : 0 < ni) by (apply Rinv_0_lt_compat; lra).
    assert (NI1 : ni <= 1) by (rewrite <- Rinv_1; apply Rinv_le_contravar; lra).
    assert (GN : G * ni * (1 - / 1048576) <= (1 + / 1048576) * ri).
    { apply Rle_trans with ((IZR n + / 1048576) * ri * ni).
      - replace (G * ni * (1 - / 1048576)) with (G * (1 - / 1048576) * ni) by ring. apply Rmult_le_compat_r; lra.
      - replace ((IZR n + / 1048576) * ri * ni) with (ri * (IZR n * ni) + / 1048576 * (ri * ni)) by ring. rewrite NI. assert (ri * ni <= ri) by nra. lra. }
    assert (GB : G * (1 - / 1048576) <= 1048577 * ri) by (eapply Rle_trans; [exact GR|]; apply Rmult_le_compat_r; lra).
    unfold u53 in *. unfold Rdiv. fold ri. replace (G * (/ IZR n + / 16777216)) with (G * ni + G * / 16777216) in DN by (unfold ni; ring).
    replace (G * (r1 - r0)) with (G * r1 - G * r0) in DN by ring. lra.
Qed.

(** ** Interpolation of moderate numbers *)
Lemma interp1_le : forall (s e c : float32) k, (-149 <= k <= 120)%Z -> fin_le (bpow radix2 k) s -> fin_le (bpow radix2 k) e -> unit32 c ->
  fin_le (bpow radix2 (k + 2)) (Bplus mode_NE s (Bmult mode_NE c (Bminus mode_NE e s))) /\
  fin_le (bpow radix2 (k + 2)) (Bplus mode_NE s (Bmult mode_NE (Bminus mode_NE e s) c)).
Proof.
  intros s e c k K [FS BS] [FE BE] (FC & C0 & C1).
  assert (P : bpow radix2 (k + 1) = 2 * bpow radix2 k) by (rewrite bpow_plus; change (bpow radix2 1) with 2; ring).
  assert (P2 : bpow radix2 (k + 2) = 4 * bpow radix2 k) by (rewrite bpow_plus; change (bpow radix2 2) with 4; ring).
  pose proof (bpow_gt_0 radix2 k) as P0.
  assert (FM : forall i, (-149 <= i)%Z -> fmt32 (bpow radix2 i)) by (intros; apply fmt_bpow; [reflexivity|lia]).
  assert (SM : forall i z, (-149 <= i <= 122)%Z -> Rabs z <= bpow radix2 i -> small32 z).
  { intros i z I H. eapply small_fmt_bound; [reflexivity|apply (FM i); lia|apply bpow_lt; lia|exact H]. }
  assert (D0 : Rabs (B2R e - B2R s) <= bpow radix2 (k + 1)).
  { unfold Rminus. eapply Rle_trans; [apply Rabs_triang|]. rewrite Rabs_Ropp. lra. }
  destruct (minus_fin 24 128 _ _ e s FE FS (SM (k + 1)%Z _ ltac:(lia) D0)) as [F1 E1].
  assert (D1 : Rabs (B2R (Bminus mode_NE e s)) <= bpow radix2 (k + 1)) by (rewrite E1; apply rnd_abs_le; [reflexivity|apply FM; lia|exact D0]).
  set (d := Bminus mode_NE e s) in *.
  assert (D2 : Rabs (B2R c * B2R d) <= bpow radix2 (k + 1)) by (rewrite Rabs_mult, (Rabs_pos_eq (B2R c)) by lra; pose proof (Rabs_pos (B2R d)); nra).
  assert (Q : forall m : float32, is_finite m = true -> B2R m = r32 (B2R c * B2R d) -> fin_le (bpow radix2 (k + 2)) (Bplus mode_NE s m)).
  { intros m F2 E2. assert (D3 : Rabs (B2R m) <= bpow radix2 (k + 1)) by (rewrite E2; apply rnd_abs_le; [reflexivity|apply FM; lia|exact D2]).
    assert (D4 : Rabs (B2R s + B2R m) <= bpow radix2 (k + 2)) by (eapply Rle_trans; [apply Rabs_triang|]; lra).
    destruct (plus_fin 24 128 _ _ s m FS F2 (SM (k + 2)%Z _ ltac:(lia) D4)) as [F3 E3]. split; [exact F3|]. rewrite E3. apply rnd_abs_le; [reflexivity|apply FM; lia|exact D4]. }
  split.
  - destruct (mult_fin 24 128 _ _ c d FC F1 (SM (k + 1)%Z _ ltac:(lia) D2)) as [F2 E2]. apply Q; assumption.
  - rewrite (Rmult_comm (B2R c)) in D2. destruct (mult_fin 24 128 _ _ d c F1 FC (SM (k + 1)%Z _ ltac:(lia) D2)) as [F2 E2]. apply Q; [exact F2|]. rewrite E2. f_equal. apply Rmult_comm.
Qed.
Lemma interp_v_le : forall v w (r : float32) k, (-149 <= k <= 120)%Z -> vec_le (bpow radix2 k) v -> vec_le (bpow radix2 k) w -> is_nan r = false ->
  vec_le (bpow radix2 (k + 2)) (interp_v v w r).
Proof.
  intros v w r k K [V1 V2] [W1 W2] N. pose proof (clamp_unit acosf r N) as U.
  split; [apply (interp1_le _ _ _ k K V1 W1 U)|apply (interp1_le _ _ _ k K V2 W2 U)].
Qed.
Lemma interp_f_le : forall (v w r : float32) k, (-149 <= k <= 120)%Z -> fin_le (bpow radix2 k) v -> fin_le (bpow radix2 k) w -> is_nan r = false ->
  fin_le (bpow radix2 (k + 2)) (interp_f v w r).
Proof. intros v w r k K V W N. apply (interp1_le _ _ _ k K V W (clamp_unit acosf r N)). Qed.

(** *** The tips of a segment *)
Definition unit_of (pp : PositionParams) : R := sqrt (B2R (pp_spring pp : float32)).
Lemma unit_range : forall (pp : PositionParams) rate, steady pp rate -> / 1024 <= unit_of pp <= 1024.
Proof.
  intros pp rate [[_ S] _ _ _ _]. unfold unit_of, A. split.
  - replace (/ 1024) with (sqrt (/ 1048576)); [apply sqrt_le_1_alt; lra|]. replace (/ 1048576) with (/ 1024 * / 1024) by lra. apply sqrt_square. lra.
  - replace 1024 with (sqrt 1048576); [apply sqrt_le_1_alt; lra|]. replace 1048576 with (1024 * 1024) by lra. apply sqrt_square. lra.
Qed.
Lemma steady_step : forall (pp : PositionParams) rate (a b : float64), steady pp rate -> is_finite a = true -> is_finite b = true ->
  0 <= B2R b - B2R a <= 9 / 8 / rate -> step_ok (pp_spring pp) (pp_drag pp) (d2f (dsub b a)) (unit_of pp).
Proof.
  intros pp rate a b SD FA FB L. pose proof (unit_range pp rate SD) as UR. destruct SD as [[FS BS] [FD BD] RT DR SR]. unfold A in *.
  set (ri := / rate). assert (RI : rate * ri = 1) by (apply Rinv_r; lra). assert (RI0 : / 16384 <= ri) by (apply Rinv_le_contravar; lra).
  assert (RI1 : ri <= 1) by (rewrite <- Rinv_1; apply Rinv_le_contravar; lra).
  assert (L' : 0 <= B2R b - B2R a <= 9 / 8 * ri) by exact L. destruct (delta_le a b _ FA FB L' ltac:(lra)) as [[FD1 _] D1]. pose proof eta_pos as T0. pose proof eta_small as T1.
  assert (D2 : 0 <= B2R (d2f (dsub b a) : float32) <= 2 * ri) by lra. clear D1. set (dl := d2f _) in *.
  constructor.
  - split; [exact FD1|exact FD].
  - exact UR.
  - unfold unit_of, A. rewrite sqrt_sqrt; [reflexivity|lra].
  - lra.
  - lra.
  - apply Rle_trans with (2 * ri * B2R (pp_drag pp : float32)); [apply Rmult_le_compat_r; lra|].
    replace (2 * ri * B2R (pp_drag pp : float32)) with (ri * (2 * B2R (pp_drag pp : float32))) by ring. rewrite <- RI, (Rmult_comm rate). apply Rmult_le_compat_l; lra.
  - eapply Rle_trans; [apply D2|]. set (sd := B2R (pp_spring pp : float32) * B2R (pp_drag pp : float32)) in *.
    replace sd with (ri * (rate * sd)) by (rewrite <- Rmult_assoc, (Rmult_comm ri), RI; ring). rewrite (Rmult_comm 2). apply Rmult_le_compat_l; lra.
Qed.

Lemma ratio_0 : forall n, (1 <= n < INT_MAX)%Z -> B2R (ratio n 0) = 0.
Proof.
  intros n N. destruct (ratio_fin n 0 ltac:(lia) ltac:(lia)) as (_ & E & _). rewrite E. cbn [INR]. rewrite rnd_0. unfold Rdiv. rewrite Rmult_0_l. apply rnd_0.
Qed.
Lemma path_lively : forall (pp : PositionParams) rate a (t0 : float64) b (t1 : float64) n, steady pp rate -> span t0 t1 rate n -> vec_le (bpow radix2 30) a -> vec_le (bpow radix2 30) b ->
  forall k j s m sf out, (Z.of_nat (j + k) <= n)%Z -> (m + k <= many)%nat -> lively (unit_of pp) m s -> is_finite (t_time s : float64) = true ->
  B2R (t_time s : float64) = B2R (interp_t t0 t1 (ratio n j) : float64) ->
  path_loop pp s a t0 b t1 n (Z.of_nat (S j)) k = (sf, out) -> lively (unit_of pp) (m + k) sf /\ Forall (lively (unit_of pp) (m + k)) out.
Proof.
  intros pp rate a t0 b t1 n SD SP BA BB. induction k as [|k IH]; intros j s m sf out J M LV FT ET H; cbn [path_loop] in H.
  - injection H as <- <-. rewrite Nat.add_0_r. split; [exact LV|constructor].
  - replace (Z.of_nat (S j) + 1)%Z with (Z.of_nat (S (S j))) in H by lia.
    change (fdiv (fofZ (Z.of_nat (S j))) (fofZ n)) with (ratio n (S j)) in H.
    set (s1 := tip_update pp s _ _) in H. destruct (path_loop _ s1 _ _ _ _ _ _ k) as [sf' o] eqn:E. injection H as <- <-.
    assert (N : (1 <= n < INT_MAX)%Z) by (destruct SP; unfold INT_MAX; lia).
    destruct (ratio_fin n (S j) ltac:(lia) ltac:(lia)) as (U & _).
    assert (NN : is_nan (ratio n (S j)) = false) by (destruct U as [U _]; destruct (ratio n (S j)); try discriminate U; reflexivity).
    pose proof SP as [[F0 F1] B OR (g & FG & EG) NL RT ST].
    destruct (interp_t_fin acosf t0 t1 g _ F0 F1 OR FG EG U) as (F2 & _ & _).
    assert (L1 : lively (unit_of pp) (S m) s1).
    { apply tip_lively; [exact LV| |lia|].
      - apply (interp_v_le a b (ratio n (S j)) 30 ltac:(lia) BA BB NN).
      - apply (steady_step pp rate); [exact SD|exact FT|exact F2|]. rewrite ET. apply (sample_gap t0 t1 rate n j SP). lia. }
    assert (FT1 : is_finite (t_time s1 : float64) = true) by exact F2.
    destruct (IH (S j) s1 (S m) sf' o) as [K1 K2]; [lia|lia|exact L1|exact FT1|reflexivity|exact E|].
    replace (m + S k)%nat with (S m + k)%nat by lia. split; [exact K1|]. constructor; [|exact K2]. eapply lively_le; [exact L1|lia].
Qed.
Lemma along_lively : forall (pp : PositionParams) rate s a (t0 : float64) b (t1 : float64) n m sf out, steady pp rate -> span t0 t1 rate n ->
  vec_le (bpow radix2 30) a -> vec_le (bpow radix2 30) b -> lively (unit_of pp) m s -> is_finite (t_time s : float64) = true -> B2R (t_time s : float64) = B2R t0 ->
  update_along_path pp s a t0 b t1 n = Ret (sf, out) -> (m + List.length out <= many)%nat ->
  lively (unit_of pp) (m + List.length out) sf /\ Forall (lively (unit_of pp) (m + List.length out)) out.
Proof.
  intros pp rate s a t0 b t1 n m sf out SD SP BA BB LV FT ET H M. pose proof (update_along_path_length _ _ _ _ _ _ _ _ _ H) as LE.
  unfold update_along_path in H. destruct (Z.leb_spec INT_MAX n); [discriminate H|]. apply ret_inj in H.
  destruct (Z_le_gt_dec n 0) as [NZ|NZ].
  { replace (Z.to_nat n) with 0%nat in H by lia. cbn [path_loop] in H. injection H as <- <-. cbn. rewrite Nat.add_0_r. split; [exact LV|constructor]. }
  rewrite LE. rewrite LE in M.
  eapply (path_lively pp rate a t0 b t1 n SD SP BA BB (Z.to_nat n) 0 s m sf out); [lia|exact M|exact LV|exact FT| |exact H].
  rewrite ET. destruct SP as [[F0 F1] B OR (g & FG & EG) NL RT ST]. destruct (ratio_fin n 0 ltac:(lia) ltac:(lia)) as (U & _).
  destruct (interp_t_fin acosf t0 t1 g _ F0 F1 OR FG EG U) as (_ & E & _). unfold A. rewrite E. rewrite ratio_0 by lia. rewrite Rmult_0_r, rnd_0, Rplus_0_r. symmetry. apply rnd_id. apply fmt_B2R.
Qed.

(** ** The tips of the end of the stroke *)
Lemma half_le : forall d : float64, is_finite d = true -> 0 <= B2R d -> let h := dmul d (ddiv (dofZ 1) (dofZ 2)) in
  is_finite (h : float64) = true /\ 0 <= B2R (h : float64) <= B2R d.
Proof.
  intros d F P. unfold A. cbn [dmul ddiv dofZ ieee]. set (q := Bdiv mode_NE _ _).
  assert (Q : is_finite q = true /\ B2R q = / 2).
  { destruct (ofZ_64 1 eq_refl) as [G1 E1]. destruct (ofZ_64 2 eq_refl) as [G2 E2]. unfold q.
    assert (EQ : forall a b : float64, B2R a = 1 -> B2R b = 2 -> B2R a / B2R b = bpow radix2 (-1)) by (intros a b -> ->; cbn; lra).
    destruct (div_fin 53 1024 _ _ _ (binary_normalize 53 1024 prec_gt_0_64 prec_lt_emax_64 mode_NE 2 0 false) G1) as [G3 E3].
    - rewrite E2. lra.
    - rewrite (EQ _ _ E1 E2). apply small_le64. rewrite Rabs_pos_eq by apply bpow_ge_0. apply Rle_trans with 1; [cbn; lra|apply IZR_le; lia].
    - split; [exact G3|]. rewrite E3, (EQ _ _ E1 E2). rewrite rnd_id; [reflexivity|]. apply fmt_bpow; [reflexivity|lia]. }
  destruct Q as [QF QE]. clearbody q.
  destruct (mult_fin 53 1024 _ _ d q F QF) as [F1 E1].
  { apply small_bound with (x := d); [reflexivity|]. rewrite QE. rewrite !Rabs_pos_eq; lra. }
  split; [exact F1|]. rewrite E1, QE. split; [apply rnd_ge0; [reflexivity|lra]|apply rnd_le_fmt; [reflexivity|apply fmt_B2R|lra]].
Qed.
Lemma end_lively : forall (pp : PositionParams) rate anchor (stop : float32), steady pp rate -> vec_le (bpow radix2 30) anchor ->
  forall k s (delta : float64) m sf out, (m + k <= many)%nat -> lively (unit_of pp) m s -> is_finite (t_time s : float64) = true ->
  Rabs (B2R (t_time s : float64)) <= 4294967296 - 4 * INR k -> is_finite delta = true -> 0 <= B2R delta <= 17 / 16 / rate ->
  model_end_of_stroke pp s anchor delta k stop = (sf, out) ->
  lively (unit_of pp) (m + k) sf /\ Forall (lively (unit_of pp) (m + k)) out /\
  within (bpow radix2 32) (t_time sf) /\ Forall (fun t : TipState => within (bpow radix2 32) (t_time t)) out.
Proof.
  intros pp rate anchor stop SD BA. induction k as [|k IH]; intros s delta m sf out M LV FT BT FD BD H; cbn [model_end_of_stroke] in H.
  - injection H as <- <-. rewrite Nat.add_0_r. split; [exact LV|]. split; [constructor|]. split; [|constructor]. split; [exact FT|].
    cbn [INR] in BT. change (bpow radix2 32) with 4294967296. unfold A in *. lra.
  - unfold A in *. set (cand := tip_update pp s anchor _) in H. rewrite S_INR in BT. assert (K0 : 0 <= INR k) by apply pos_INR.
    pose proof (sd_rate _ _ SD) as RT. set (ri := / rate) in *. assert (RI0 : / 16384 <= ri) by (apply Rinv_le_contravar; lra).
    assert (RI1 : ri <= 1) by (rewrite <- Rinv_1; apply Rinv_le_contravar; lra). assert (BD' : 0 <= B2R delta <= 17 / 16 * ri) by exact BD.
    pose proof eta_pos as T0. pose proof eta_small as T1.
    assert (TS : Rabs (B2R (t_time s : float64) + B2R delta) <= 4294967296).
    { eapply Rle_trans; [apply Rabs_triang|]. rewrite (Rabs_pos_eq (B2R delta)) by lra. lra. }
    destruct (plus_fin 53 1024 _ _ (t_time s : float64) delta FT FD) as [F1 E1].
    { apply small_le64. eapply Rle_trans; [exact TS|]. apply IZR_le. lia. }
    pose proof (r64_error (B2R (t_time s : float64) + B2R delta)) as RE. rewrite <- E1 in RE. apply Rabs_le_inv in RE.
    assert (UP : B2R (t_time s : float64) <= B2R (Bplus mode_NE (t_time s : float64) delta)) by (rewrite E1; apply rnd_ge_fmt; [reflexivity|apply fmt_B2R|lra]).
    assert (TC : t_time cand = Bplus mode_NE (t_time s : float64) delta) by reflexivity. unfold u53 in RE.
    assert (GAP : 0 <= B2R (t_time cand : float64) - B2R (t_time s : float64) <= 9 / 8 * ri) by (rewrite TC; split; lra).
    assert (FC : is_finite (t_time cand : float64) = true) by (rewrite TC; exact F1).
    assert (BC : Rabs (B2R (t_time cand : float64)) <= 4294967296 - 4 * INR k).
    { apply Rabs_le_inv in BT. apply Rabs_le. lra. }
    assert (LC : lively (unit_of pp) (S m) cand).
    { apply tip_lively; [exact LV| |lia|].
      - clear - BA. destruct BA as [[F1 B1] [F2 B2]]. change (bpow radix2 30) with 1073741824 in *. split; split; try assumption; lra.
      - apply (steady_step pp rate); [exact SD|exact FT|exact FC|exact GAP]. }
    assert (WC : within (bpow radix2 32) (t_time cand)) by (split; [exact FC|]; change (bpow radix2 32) with 4294967296; lra).
    replace (m + S k)%nat with (S m + k)%nat by lia. clearbody cand. clear TC F1 E1 RE UP TS GAP.
    assert (LC' : lively (unit_of pp) (S m + k) cand) by (eapply lively_le; [exact LC|lia]).
    destruct (fltb (distance _ _) _) in H; [|destruct (fltb _ f1) in H; [|destruct (fltb (distance _ _) _) in H]].
    + injection H as <- <-. split; [exact LC'|]. split; [constructor|]. split; [exact WC|constructor].
    + destruct (half_le delta FD (proj1 BD)) as [FH BH].
      eapply IH; [|eapply lively_le; [exact LV|]|exact FT| |exact FH| |exact H]; try lia; [lra|]. fold ri. unfold Rdiv at 2. fold ri. split; [apply BH|]. eapply Rle_trans; [apply BH|apply BD'].
    + injection H as <- <-. split; [exact LC'|]. split; [constructor; [exact LC'|constructor]|]. split; [exact WC|constructor; [exact WC|constructor]].
    + destruct (model_end_of_stroke _ _ _ _ k _) as [sf' o] eqn:E. injection H as <- <-.
      destruct (IH cand delta (S m) sf' o ltac:(lia) LC FC BC FD BD E) as (K1 & K2 & K3 & K4). split; [exact K1|]. split; [constructor; assumption|]. split; [exact K3|constructor; assumption].
Qed.
Lemma period_le : forall rate : float64, is_finite rate = true -> 1 <= B2R rate <= 16384 ->
  let d := ddiv (dofZ 1) rate in is_finite (d : float64) = true /\ 0 <= B2R (d : float64) <= 17 / 16 / B2R rate.
Proof.
  intros rate F B. unfold A. cbn [ddiv dofZ ieee]. destruct (ofZ_64 1 eq_refl) as [F1 E1]. set (one := binary_normalize _ _ _ _ _ 1 0 false) in *.
  set (ri := / B2R rate) in *. assert (RI0 : / 16384 <= ri) by (apply Rinv_le_contravar; lra).
  assert (RI1 : ri <= 1) by (rewrite <- Rinv_1; apply Rinv_le_contravar; lra).
  assert (E : B2R one / B2R rate = ri) by (rewrite E1; unfold Rdiv; fold ri; ring).
  destruct (div_fin 53 1024 _ _ one rate F1 ltac:(lra)) as [F2 E2].
  { rewrite E. apply small_le64. rewrite Rabs_pos_eq by lra. apply Rle_trans with 1; [lra|apply IZR_le; lia]. }
  split; [exact F2|]. rewrite E2, E. unfold Rdiv. fold ri. pose proof (r64_error ri) as RE. rewrite (Rabs_pos_eq ri) in RE by lra.
  apply Rabs_le_inv in RE. pose proof eta_pos as T0. pose proof eta_small as T1. unfold u53 in RE.
  split; [apply rnd_ge0; [reflexivity|lra]|lra].
Qed.

(** ** The inputs remembered *)
Definition bounded (kp kv ka ks : Z) (r : Result) : Prop :=
  vec_le (bpow radix2 kp) (r_pos r) /\ vec_le (bpow radix2 kv) (r_vel r) /\ vec_le (bpow radix2 ka) (r_acc r) /\
  fin_le (bpow radix2 ks) (r_pressure r) /\ fin_le (bpow radix2 ks) (r_tilt r) /\ fin_le (bpow radix2 ks) (r_orient r).
Definition plain : Result -> Prop := bounded 30 51 72 100.
Definition gentle : Result -> Prop := bounded 110 98 120 102.
Definition moderate : Result -> Prop := bounded 112 100 122 104.

Lemma fin_le_mono : forall a b x, fin_le a x -> a <= b -> fin_le b x.
Proof. intros a b x [F L] H. split; [exact F|lra]. Qed.
Lemma vec_le_mono : forall a b v, vec_le a v -> a <= b -> vec_le b v.
Proof. intros a b v [H1 H2] H. split; eapply fin_le_mono; eassumption. Qed.
Lemma vec_le_pow : forall j k v, (j <= k)%Z -> vec_le (bpow radix2 j) v -> vec_le (bpow radix2 k) v.
Proof. intros j k v H V. eapply vec_le_mono; [exact V|]. apply bpow_le. exact H. Qed.
Lemma fin_le_pow : forall j k v, (j <= k)%Z -> fin_le (bpow radix2 j) v -> fin_le (bpow radix2 k) v.
Proof. intros j k v H V. eapply fin_le_mono; [exact V|]. apply bpow_le. exact H. Qed.
Lemma bounded_mono : forall a b c d a' b' c' d' r, (a <= a')%Z -> (b <= b')%Z -> (c <= c')%Z -> (d <= d')%Z -> bounded a b c d r -> bounded a' b' c' d' r.
Proof.
  intros a b c d a' b' c' d' r H1 H2 H3 H4 (B1 & B2 & B3 & B4 & B5 & B6).
  repeat split; try apply (vec_le_pow _ _ _ H1 B1); try apply (vec_le_pow _ _ _ H2 B2); try apply (vec_le_pow _ _ _ H3 B3);
    try apply (fin_le_pow _ _ _ H4 B4); try apply (fin_le_pow _ _ _ H4 B5); apply (fin_le_pow _ _ _ H4 B6).
Qed.
Lemma vzero_le : forall k, vec_le (bpow radix2 k) vzero.
Proof. intros k. pose proof (bpow_ge_0 radix2 k). split; (split; [reflexivity|]); cbn; rewrite Rabs_R0; assumption. Qed.
Lemma fm1_le : forall k, (0 <= k)%Z -> fin_le (bpow radix2 k) fm1.
Proof.
  intros k H. destruct (fm1_fin acosf) as [F E]. split; [exact F|]. unfold A in *. rewrite E. rewrite Rabs_left by lra.
  replace (- -1) with (bpow radix2 0) by (cbn; lra). apply bpow_le. exact H.
Qed.

(** Times that agree, or are at least 2^-20 apart. *)
Definition spaced (t0 t : float64) : Prop := is_finite t0 = true /\ is_finite t = true /\
  Rabs (B2R t0) <= 2147483648 /\ Rabs (B2R t) <= 2147483648 /\ (B2R t0 = B2R t \/ / 1048576 <= Rabs (B2R t - B2R t0)).
Lemma spaced_dt : forall t0 t : float64, spaced t0 t -> deqb t t0 = false ->
  is_finite (d2f (dsub t t0) : float32) = true /\ / 1048576 <= Rabs (B2R (d2f (dsub t t0) : float32)) <= bpow radix2 32.
Proof.
  intros t0 t (F0 & F1 & L0 & L1 & S) D. unfold A in *. cbn [deqb ieee] in D. apply eqb_false_R in D; [|assumption|assumption].
  destruct S as [S|S]; [congruence|]. cbn [d2f dsub ieee].
  assert (L2 : Rabs (B2R t - B2R t0) <= bpow radix2 32).
  { replace (bpow radix2 32) with 4294967296 by (cbn; lra). apply Rabs_le_inv in L0, L1. apply Rabs_le. lra. }
  assert (FM : forall p e, Prec_gt_0 p -> (3 - e - p <= -20)%Z -> fmt p e (bpow radix2 32) /\ fmt p e (/ 1048576)).
  { intros p e P H. split; [apply fmt_bpow; [exact P|lia]|]. replace (/ 1048576) with (bpow radix2 (-20)) by (cbn; lra). apply fmt_bpow; assumption. }
  destruct (FM 53%Z 1024%Z eq_refl ltac:(lia)) as [G1 G2]. destruct (FM 24%Z 128%Z eq_refl ltac:(lia)) as [G3 G4].
  assert (LO : forall p e, Prec_gt_0 p -> fmt p e (/ 1048576) -> forall x, / 1048576 <= Rabs x -> / 1048576 <= Rabs (rnd p e x)).
  { intros p e PG FG x LX. destruct (Rle_lt_dec 0 x).
    - rewrite Rabs_pos_eq in LX by lra. rewrite Rabs_pos_eq by (apply rnd_ge0; [exact PG|lra]). apply rnd_ge_fmt; assumption.
    - rewrite Rabs_left in LX by lra. rewrite Rabs_left1 by (apply rnd_le0; [exact PG|lra]). rewrite <- rnd_opp. apply rnd_ge_fmt; [exact PG|exact FG|lra]. }
  destruct (minus_fin 53 1024 _ _ t t0 F1 F0) as [M1 E].
  { eapply small_fmt_bound; [reflexivity|exact G1| |exact L2]. apply bpow_lt. lia. }
  assert (L3 : Rabs (B2R (Bminus mode_NE t t0)) <= bpow radix2 32) by (rewrite E; apply rnd_abs_le; [reflexivity|exact G1|exact L2]).
  destruct (d2f_fin _ M1) as [M2 E'].
  { eapply small_fmt_bound; [reflexivity|exact G3| |exact L3]. apply bpow_lt. lia. }
  split; [exact M2|]. rewrite E'. split.
  - apply LO; [reflexivity|exact G4|]. rewrite E. apply LO; [reflexivity|exact G2|exact S].
  - apply rnd_abs_le; [reflexivity|exact G3|exact L3].
Qed.

Lemma quot_le : forall (x y d : float32) k, (-100 <= k <= 100)%Z -> fin_le (bpow radix2 k) x -> fin_le (bpow radix2 k) y ->
  / 1048576 <= Rabs (B2R d) -> fin_le (bpow radix2 (k + 21)) (Bdiv mode_NE (Bminus mode_NE x y) d).
Proof.
  intros x y d k K [FX LX] [FY LY] LD.
  assert (E1 : bpow radix2 (k + 1) = 2 * bpow radix2 k) by (rewrite bpow_plus; cbn; lra).
  assert (E2 : bpow radix2 (k + 21) = 2097152 * bpow radix2 k) by (rewrite bpow_plus; cbn; lra).
  assert (F1 : fmt 24 128 (bpow radix2 (k + 1))) by (apply fmt_bpow; [reflexivity|lia]).
  assert (F2 : fmt 24 128 (bpow radix2 (k + 21))) by (apply fmt_bpow; [reflexivity|lia]).
  pose proof (bpow_gt_0 radix2 k) as P.
  destruct (num_le 24 128 _ _ x y _ FX FY LX LY) as [[M1 M2] _]; [rewrite <- E1; exact F1|rewrite <- E1; apply bpow_lt; lia|].
  assert (N : B2R d <> 0) by (intros Z; rewrite Z, Rabs_R0 in LD; lra).
  assert (L : Rabs (B2R (Bminus mode_NE x y) / B2R d) <= bpow radix2 (k + 21)).
  { unfold Rdiv. rewrite Rabs_mult, Rabs_inv. assert (ID : 0 <= / Rabs (B2R d) <= 1048576).
    { split; [left; apply Rinv_0_lt_compat; apply Rabs_pos_lt; exact N|]. replace 1048576 with (/ / 1048576) by lra. apply Rinv_le_contravar; lra. }
    rewrite E2. eapply Rle_trans; [apply Rmult_le_compat; [apply Rabs_pos|apply ID|exact M2|apply ID]|]. lra. }
  destruct (div_fin 24 128 _ _ (Bminus mode_NE x y) d M1 N) as [D1 D2].
  { eapply small_fmt_bound; [reflexivity|exact F2| |exact L]. apply bpow_lt. lia. }
  split; [exact D1|]. rewrite D2. apply rnd_abs_le; [reflexivity|exact F2|exact L].
Qed.
Lemma vquot_le : forall v w (d : float32) k, (-100 <= k <= 100)%Z -> vec_le (bpow radix2 k) v -> vec_le (bpow radix2 k) w ->
  / 1048576 <= Rabs (B2R d) -> vec_le (bpow radix2 (k + 21)) (vdiv (vsub v w) d).
Proof. intros v w d k K [V1 V2] [W1 W2] D. split; [exact (quot_le _ _ _ k K V1 W1 D)|exact (quot_le _ _ _ k K V2 W2 D)]. Qed.

Lemma stylus_plain : forall sm pos (t : float64) (pr ti o : float32) sm' (t0 : float64), validate_stylus (sm_params sm) = OkStatus ->
  Forall plain (s_raw (sm_state sm)) -> vec_le (bpow radix2 30) pos -> fin_le (bpow radix2 100) pr -> fin_le (bpow radix2 100) ti -> fin_le (bpow radix2 100) o ->
  latest acosf t0 (s_raw (sm_state sm)) -> (s_raw (sm_state sm) = [] \/ spaced t0 t) ->
  stylus_update sm pos t pr ti o = Ret sm' ->
  Forall plain (s_raw (sm_state sm')) /\ latest acosf t (s_raw (sm_state sm')).
Proof.
  intros sm pos t pr ti o sm' t0 V F P Q1 Q2 Q3 LT SA H. split.
  - unfold stylus_update in H. destruct (negb _ && _ && _ && _); [apply ret_inj in H; subst sm'; constructor|].
    match type of H with (let '(vel, acc) := ?e in _) = _ => assert (VA : vec_le (bpow radix2 51) (fst e) /\ vec_le (bpow radix2 72) (snd e)); [|destruct e as [vel acc]] end.
    { destruct (back (s_raw (sm_state sm))) as [b|] eqn:B; [|split; apply vzero_le]. assert (LB : r_time b = t0) by exact (LT b B). rewrite LB.
      apply back_in in B. rewrite Forall_forall in F. destruct (F b B) as (B1 & B2 & _).
      destruct (deqb (Arith := A) t t0) eqn:D; cbn [negb]; [split; apply vzero_le|]. destruct SA as [SA|SA]; [rewrite SA in B; destruct B|].
      destruct (spaced_dt t0 t SA D) as (_ & N & _). cbn [fst snd].
      assert (V1 : vec_le (bpow radix2 51) (vdiv (vsub pos (r_pos b)) (d2f (Arith := A) (dsub (Arith := A) t t0)))) by (apply (vquot_le _ _ _ 30); [lia|exact P|exact B1|exact N]).
      split; [exact V1|]. apply (vquot_le _ _ _ 51); [lia|exact V1|exact B2|exact N]. }
    destruct VA as [V1 V2]. bind_inv H. apply ret_inj in H. subst sm'. cbn [sm_state s_raw]. rewrite Forall_forall in *.
    intros r I1. apply (trim_in acosf _ _ _ _ E) in I1. apply in_app_or in I1. destruct I1 as [I1|[<-|[]]]; [auto|].
    split; [exact P|]. split; [exact V1|]. split; [exact V2|]. split; [exact Q1|]. split; [exact Q2|exact Q3].
  - destruct (raw_step _ _ _ _ _ _ _ V H) as [[E _]|(NE & x & pre & E & _ & E1 & _)]; intros b B.
    + rewrite E in B. discriminate B.
    + destruct (exists_last NE) as (l & y & EL). rewrite EL in B, E. rewrite back_snoc in B. apply some_inj in B. subst b.
      rewrite app_assoc in E. apply app_inj_tail in E. destruct E as [_ ->]. exact E1.
Qed.

Lemma in_turn_le : forall x k, (3 <= k)%Z -> in_turn x -> fin_le (bpow radix2 k) x.
Proof.
  intros x k K (F & T0 & T1). split; [exact F|]. rewrite Rabs_pos_eq by exact T0. pose proof turn_order.
  pose proof (bpow_le radix2 3 k K) as L. replace (bpow radix2 3) with 8 in L by (cbn; lra). lra.
Qed.
Lemma interp_bounded : forall fuel a b (v : float32) r kp kv ka ks, (0 <= kp <= 120)%Z -> (0 <= kv <= 120)%Z -> (0 <= ka <= 120)%Z -> (1 <= ks <= 120)%Z ->
  bounded kp kv ka ks a -> bounded kp kv ka ks b -> is_nan v = false -> interp_result fuel a b v = Ret r -> bounded (kp + 2) (kv + 2) (ka + 2) (ks + 2) r.
Proof.
  intros fuel a b v r kp kv ka ks K1 K2 K3 K4 (A1 & A2 & A3 & A4 & A5 & A6) (B1 & B2 & B3 & B4 & B5 & B6) N H.
  pose proof (interp_result_orient acosf _ _ _ _ _ H) as HO. apply interp_result_inv in H. destruct H as (H1 & H2 & H3 & _ & H4 & H5 & _).
  unfold bounded. rewrite H1, H2, H3, H4, H5. clear H1 H2 H3 H4 H5.
  split; [apply interp_v_le; try assumption; lia|]. split; [apply interp_v_le; try assumption; lia|]. split; [apply interp_v_le; try assumption; lia|].
  split; [destruct (_ || _); [apply fm1_le; lia|apply interp_f_le; try assumption; lia]|].
  split; [destruct (_ || _); [apply fm1_le; lia|apply interp_f_le; try assumption; lia]|].
  destruct HO as [HO|[HO|(_ & [HO|[HO|HO]])]].
  - unfold A in *. rewrite HO. apply fm1_le. lia.
  - apply in_turn_le; [lia|exact HO].
  - destruct A6 as [F _]. unfold A in *. destruct (r_orient a); try discriminate F; discriminate HO.
  - destruct B6 as [F _]. unfold A in *. destruct (r_orient b); try discriminate F; discriminate HO.
  - congruence.
Qed.
Lemma plain_gentle : forall r, plain r -> gentle r.
Proof. intros r H. eapply bounded_mono; [| | | |exact H]; lia. Qed.
Lemma query_gentle : forall fuel sm tip n r, Forall plain (s_raw (sm_state sm)) ->
  stylus_query fuel sm tip n = Ret r -> gentle r /\ (r_time r = d0 \/ r_time r = t_time tip).
Proof.
  intros fuel sm tip n r F H. rewrite Forall_forall in F.
  destruct (query_eq fuel sm tip n) as [[_ E]|(_ & o & E & O)].
  { rewrite E in H. apply ret_inj in H. subst r. split; [|left; reflexivity].
    split; [apply vzero_le|]. split; [apply vzero_le|]. split; [apply vzero_le|]. split; [|split]; apply fm1_le; lia. }
  rewrite E in H. destruct o as [x| |] eqn:EO; cbn [obind] in H; try discriminate H. apply ret_inj in H. subst r.
  split; [|right; reflexivity]. assert (G : gentle x).
  { destruct O as [(p & QP & E0)|(_ & r1 & R1 & E0)]; symmetry in E0.
    - pose proof (projection_ratio acosf _ _ _ _ QP) as N. apply query_projection_in in QP. destruct QP as [Q1 Q2].
      pose proof (interp_bounded _ _ _ _ _ 30 51 72 100 ltac:(lia) ltac:(lia) ltac:(lia) ltac:(lia) (F _ Q1) (F _ Q2) N E0) as G.
      eapply bounded_mono; [| | | |exact G]; lia.
    - apply ret_inj in E0. subst x. apply plain_gentle. apply F. exact R1. }
  destruct G as (G1 & G2 & G3 & G4 & G5 & G6). unfold gentle, bounded. cbn [with_flags r_pos r_vel r_acc r_pressure r_tilt r_orient].
  split; [exact G1|]. split; [exact G2|]. split; [exact G3|].
  split; [destruct (s_unk_pressure _); [apply fm1_le; lia|exact G4]|].
  split; [destruct (s_unk_tilt _); [apply fm1_le; lia|exact G5]|destruct (s_unk_orient _); [apply fm1_le; lia|exact G6]].
Qed.

(** ** Mitigation *)
Definition slow_to (k : Z) (x : float32) : Prop := is_finite x = true /\ 0 <= B2R x <= bpow radix2 k.
Definition slow : float32 -> Prop := slow_to 102.
Definition paced (l : list SpeedSample) : Prop := Forall (fun s => slow (ss_speed s)) l.
Lemma magnitude_le : forall k v, (0 <= k <= 100)%Z -> vec_le (bpow radix2 k) v -> slow_to (k + 2) (magnitude v).
Proof.
  intros k v K [[F1 L1] [F2 L2]]. unfold magnitude, A. cbn [fhypot ieee]. unfold b_hypot.
  assert (I1 : forall x : float32, is_finite x = true -> is_inf x = false) by (intros []; try reflexivity; discriminate).
  unfold A in *. change (F (Arith := ieee acosf)) with float32 in *. rewrite (I1 _ F1), (I1 _ F2). cbn [orb].
  destruct (f2d_fin _ F1) as [G1 K1]. destruct (f2d_fin _ F2) as [G2 K2].
  assert (SQ : forall x : float64, is_finite x = true -> Rabs (B2R x) <= bpow radix2 k -> is_finite (Bmult mode_NE x x) = true /\ 0 <= B2R (Bmult mode_NE x x) <= bpow radix2 (2 * k)).
  { intros x FX LX. assert (FM : fmt 53 1024 (bpow radix2 (2 * k))) by (apply fmt_bpow; [reflexivity|lia]).
    assert (P : 0 <= B2R x * B2R x <= bpow radix2 (2 * k)).
    { split; [apply Rle_0_sqr|]. replace (bpow radix2 (2 * k)) with (bpow radix2 k * bpow radix2 k) by (rewrite <- bpow_plus; f_equal; lia).
      rewrite <- (Rabs_pos_eq (B2R x * B2R x)) by apply Rle_0_sqr. rewrite Rabs_mult. apply Rmult_le_compat; try assumption; apply Rabs_pos. }
    destruct (mult_fin 53 1024 _ _ x x FX FX) as [M1 M2].
    { eapply small_fmt_bound; [reflexivity|exact FM|apply bpow_lt; lia|]. rewrite Rabs_pos_eq by apply P. apply P. }
    split; [exact M1|]. rewrite M2. split; [apply rnd_ge0; [reflexivity|apply P]|apply rnd_le_fmt; [reflexivity|exact FM|apply P]]. }
  destruct (SQ _ G1) as [M1 N1]; [rewrite K1; exact L1|]. destruct (SQ _ G2) as [M2 N2]; [rewrite K2; exact L2|].
  assert (FM : fmt 53 1024 (bpow radix2 (2 * k + 1))) by (apply fmt_bpow; [reflexivity|lia]).
  assert (EK : bpow radix2 (2 * k + 1) = 2 * bpow radix2 (2 * k)) by (rewrite bpow_plus; change (bpow radix2 1) with 2; ring).
  match goal with |- slow_to _ (b64_to_b32 (Bsqrt mode_NE (Bplus mode_NE ?x ?y))) => set (sx := x) in *; set (sy := y) in * end.
  destruct (plus_fin 53 1024 _ _ sx sy M1 M2) as [P1 P2].
  { eapply small_fmt_bound; [reflexivity|exact FM|apply bpow_lt; lia|]. rewrite Rabs_pos_eq by lra. lra. }
  assert (PB : 0 <= B2R (Bplus mode_NE sx sy) <= bpow radix2 (2 * k + 1)) by (rewrite P2; split; [apply rnd_ge0; [reflexivity|lra]|apply rnd_le_fmt; [reflexivity|exact FM|lra]]).
  destruct (sqrt_fin 53 1024 _ _ _ P1 (proj1 PB)) as [Q1 Q2].
  assert (FM2 : forall p e, Prec_gt_0 p -> (3 - e - p <= k + 2)%Z -> fmt p e (bpow radix2 (k + 2))) by (intros; apply fmt_bpow; assumption).
  assert (SB : 0 <= B2R (Bsqrt mode_NE (Bplus mode_NE sx sy)) <= bpow radix2 (k + 2)).
  { rewrite Q2. split; [apply rnd_ge0; [reflexivity|apply sqrt_pos]|]. apply rnd_le_fmt; [reflexivity|apply FM2; [reflexivity|lia]|].
    rewrite <- (sqrt_square (bpow radix2 (k + 2))) by apply bpow_ge_0. apply sqrt_le_1_alt. rewrite <- bpow_plus. eapply Rle_trans; [apply PB|]. apply bpow_le. lia. }
  destruct (d2f_fin _ Q1) as [D1 D2].
  { eapply small_fmt_bound; [reflexivity|apply (FM2 24%Z 128%Z); [reflexivity|lia]|apply bpow_lt; lia|]. rewrite Rabs_pos_eq by apply SB. apply SB. }
  split; [exact D1|]. rewrite D2. split; [apply rnd_ge0; [reflexivity|apply SB]|apply rnd_le_fmt; [reflexivity|apply FM2; [reflexivity|lia]|apply SB]].
Qed.
Lemma magnitude_slow : forall v, vec_le (bpow radix2 100) v -> slow (magnitude v).
Proof. intros v V. exact (magnitude_le 100 v ltac:(lia) V). Qed.
Lemma fmt_mult_pow : forall z e, (Z.abs z < 2 ^ 24)%Z -> (-149 <= e)%Z -> fmt 24 128 (IZR z * bpow radix2 e).
Proof.
  intros z e Z E. unfold fmt. change (SpecFloat.fexp 24 128) with (FLT_exp (-149) 24). apply generic_format_FLT.
  exists (Float radix2 z e); [reflexivity|exact Z|exact E].
Qed.
Lemma sum_paced : forall l (s0 : float32) k, paced l -> is_finite s0 = true -> 0 <= B2R s0 <= IZR (Z.of_nat k) * bpow radix2 102 ->
  (Z.of_nat (k + List.length l) < 2 ^ 24)%Z ->
  is_finite (fold_left (fun sum s => fadd sum (ss_speed s)) l s0 : float32) = true /\
  0 <= B2R (fold_left (fun sum s => fadd sum (ss_speed s)) l s0 : float32) <= IZR (Z.of_nat (k + List.length l)) * bpow radix2 102.
Proof.
  induction l as [|s l IH]; intros s0 k P F0 B0 C; cbn [fold_left List.length] in *.
  - rewrite Nat.add_0_r. auto.
  - destruct (Forall_inv P) as [FS BS]. pose proof (Forall_inv_tail P) as PT.
    assert (FM : fmt 24 128 (IZR (Z.of_nat (S k)) * bpow radix2 102)) by (apply fmt_mult_pow; lia).
    assert (LE : 0 <= B2R s0 + B2R (ss_speed s : float32) <= IZR (Z.of_nat (S k)) * bpow radix2 102).
    { rewrite Nat2Z.inj_succ, succ_IZR. unfold A in *. lra. }
    destruct (plus_fin 24 128 _ _ s0 (ss_speed s : float32) F0 FS) as [M1 M2].
    { eapply small_fmt_bound; [reflexivity|exact FM| |rewrite Rabs_pos_eq by apply LE; apply LE].
      apply Rle_lt_trans with (bpow radix2 24 * bpow radix2 102); [|rewrite <- bpow_plus; apply bpow_lt; lia].
      apply Rmult_le_compat_r; [apply bpow_ge_0|]. replace (bpow radix2 24) with 16777216 by (cbn; lra). apply IZR_le. lia. }
    replace (k + S (List.length l))%nat with (S k + List.length l)%nat by lia. apply IH; [exact PT|exact M1| |lia].
    unfold A in *. cbn [fadd ieee]. rewrite M2. split; [apply rnd_ge0; [reflexivity|apply LE]|apply rnd_le_fmt; [reflexivity|exact FM|apply LE]].
Qed.
Lemma average_paced : forall l, paced l -> l <> [] -> (Z.of_nat (List.length l) < 2 ^ 24)%Z -> is_finite (average_speed l : float32) = true /\ 0 <= B2R (average_speed l : float32).
Proof.
  intros l P NE C. unfold average_speed.
  destruct (sum_paced l (f0 (A := A) : float32) 0%nat P eq_refl) as [K1 K2]; [cbn; lra|exact C|].
  set (sum := fold_left _ l f0) in *. clearbody sum. cbn [Nat.add] in K2. unfold A. cbn [fdiv fofZ ieee].
  match goal with |- is_finite (Bdiv _ _ ?x) = true /\ _ => set (cnt := x) end.
  assert (CP : is_finite cnt = true /\ 1 <= B2R cnt).
  { destruct (ofZ_32 (Z.of_nat (List.length l))) as [C1 C2]; [lia|]. split; [exact C1|]. apply Rle_trans with (IZR (Z.of_nat (List.length l))); [|apply Req_le; symmetry; exact C2].
    apply IZR_le. destruct l; [congruence|cbn [List.length]; lia]. }
  destruct CP as [F L].
  assert (LB : Rabs (B2R (sum : float32) / B2R cnt) <= bpow radix2 126).
  { assert (I1 : 0 < / B2R cnt <= 1) by (split; [apply Rinv_0_lt_compat; lra|rewrite <- Rinv_1; apply Rinv_le_contravar; lra]).
    assert (SL : B2R (sum : float32) <= bpow radix2 126).
    { unfold A in *. eapply Rle_trans; [apply K2|]. change 126%Z with (24 + 102)%Z. rewrite bpow_plus. apply Rmult_le_compat_r; [apply bpow_ge_0|].
      replace (bpow radix2 24) with 16777216 by (cbn; lra). apply IZR_le. lia. }
    unfold Rdiv. rewrite Rabs_pos_eq; [|apply Rmult_le_pos; [apply K2|lra]].
    apply Rle_trans with (B2R (sum : float32) * 1); [apply Rmult_le_compat_l; [apply K2|lra]|lra]. }
  destruct (div_fin 24 128 _ _ (sum : float32) cnt K1) as [D1 D2]; [lra| |].
  { eapply small_fmt_bound; [reflexivity|apply fmt_bpow; [reflexivity|]|apply bpow_lt|exact LB]; lia. }
  split; [exact D1|]. rewrite D2. apply rnd_ge0; [reflexivity|]. apply Rmult_le_pos; [apply K2|]. left. apply Rinv_0_lt_compat. lra.
Qed.
Lemma minus_fin_pos : forall x y : float32, is_finite x = true -> is_finite y = true -> 0 <= B2R x -> 0 <= B2R y -> is_finite (Bminus mode_NE x y) = true.
Proof.
  intros x y FX FY PX PY. apply minus_fin; try assumption. destruct (Rle_lt_dec (B2R x) (B2R y)).
  - apply small_bound with (x := y); [reflexivity|]. rewrite (Rabs_pos_eq (B2R y)) by exact PY. apply Rabs_le. lra.
  - apply small_bound with (x := x); [reflexivity|]. rewrite (Rabs_pos_eq (B2R x)) by exact PX. apply Rabs_le. lra.
Qed.
Definition good_bounds (p : LoopParams) : Prop := finite_bounds acosf p /\ 0 <= B2R (lp_speed_lower p : float32).
Lemma value_paced : forall p l, (lp_enabled p = true -> good_bounds p) -> paced l -> (Z.of_nat (List.length l) < 2 ^ 24)%Z -> is_nan (loop_value p l : float32) = false.
Proof.
  intros p l FB P C. unfold loop_value. destruct l as [|s l]; [reflexivity|]. destruct (lp_enabled p) eqn:EN; cbn [negb]; [|reflexivity].
  destruct (FB eq_refl) as ((F1 & F2 & U1 & U2) & PL). pose proof (average_paced (s :: l) P ltac:(discriminate) C) as [FA PA].
  set (av := average_speed (s :: l)) in *. clearbody av.
  assert (N : is_nan (clamp01 (inverse_lerp (lp_speed_lower p) (lp_speed_upper p) av) : float32) = false).
  { assert (K : is_nan (inverse_lerp (lp_speed_lower p) (lp_speed_upper p) av : float32) = false).
    { unfold inverse_lerp. destruct (feqb _ f0) eqn:Q; [reflexivity|]. unfold A in *. cbn [fdiv fsub ieee feqb] in *.
      pose proof (minus_not_nan _ _ F2 F1) as M1.
      assert (M2 : is_finite (Bminus mode_NE (av : float32) (lp_speed_lower p : float32)) = true)
        by (apply minus_fin_pos; assumption).
      destruct (is_nan (Bdiv mode_NE _ _)) eqn:DN; [|reflexivity]. exfalso. apply div_not_nan in DN; [|exact M2|exact M1].
      revert Q DN M1. generalize (Bminus mode_NE (lp_speed_upper p : float32) (lp_speed_lower p : float32)). intros x Q [s0 ->] _. discriminate Q. }
    pose proof (clamp_unit acosf _ K) as [FC _]. unfold A in *. destruct (clamp01 _); try reflexivity; discriminate FC. }
  pose proof (interp_unit acosf _ _ _ U1 U2 N) as [FI _]. unfold A in *. destruct (interp_f _ _ _); try reflexivity; discriminate FI.
Qed.

(** ** The results *)
Definition tame_tip (pp : PositionParams) (t : TipState) : Prop := lively (unit_of pp) many t /\ within (bpow radix2 32) (t_time t).
Definition finite_result (r : Result) : Prop := moderate r /\ is_finite (r_time r : float64) = true.
(** What the modelling of results needs of a tip. *)
Definition calm_tip (t : TipState) : Prop :=
  vec_le (bpow radix2 110) (t_pos t) /\ vec_le (bpow radix2 98) (t_vel t) /\ vec_le (bpow radix2 120) (t_acc t) /\ within (bpow radix2 32) (t_time t).
Lemma tame_calm : forall (pp : PositionParams) rate t, steady pp rate -> tame_tip pp t -> calm_tip t.
Proof.
  intros pp rate t SD [LT W]. destruct (lively_bounds _ many t (unit_range pp rate SD) (le_n _) LT) as (L1 & L2 & L3).
  split; [exact (vec_le_pow 76 110 _ ltac:(lia) L1)|]. split; [exact (vec_le_pow 76 98 _ ltac:(lia) L2)|]. split; [exact (vec_le_pow 93 120 _ ltac:(lia) L3)|exact W].
Qed.
Lemma tip_gentle : forall t r, calm_tip t -> gentle r -> gentle (make_result t r).
Proof.
  intros t r (L1 & L2 & L3 & _) (_ & _ & _ & G4 & G5 & G6).
  split; [exact L1|]. split; [exact L2|]. split; [exact L3|]. split; [exact G4|]. split; [exact G5|exact G6].
Qed.
Lemma loop_paced : forall lm v (t : float64) lm' x, paced (l_samples lm) -> vec_le (bpow radix2 100) v ->
  (Z.of_nat (S (List.length (l_samples lm))) < 2 ^ 24)%Z -> (lp_enabled (l_params lm) = true -> good_bounds (l_params lm)) ->
  loop_update lm v t = (lm', x) ->
  paced (l_samples lm') /\ is_nan (x : float32) = false /\ l_params lm' = l_params lm /\ (List.length (l_samples lm') <= S (List.length (l_samples lm)))%nat.
Proof.
  intros lm v t lm' x P V C FB H. unfold loop_update in H. destruct (lp_enabled (l_params lm)) eqn:EN; cbn [negb] in H.
  - assert (K : paced (loop_trim (l_params lm) t (l_samples lm ++ [mkSpeed (magnitude v) t])) /\
      (List.length (loop_trim (l_params lm) t (l_samples lm ++ [mkSpeed (magnitude v) t])) <= S (List.length (l_samples lm)))%nat).
    { destruct (loop_trim_suffix acosf (l_params lm) t (l_samples lm ++ [mkSpeed (magnitude v) t])) as [pre E].
      assert (S2 : paced (l_samples lm ++ [mkSpeed (magnitude v) t])).
      { apply Forall_app. split; [exact P|]. constructor; [|constructor]. apply magnitude_slow. exact V. }
      assert (LN : List.length (l_samples lm ++ [mkSpeed (magnitude v) t]) = S (List.length (l_samples lm))) by (rewrite app_length; apply Nat.add_1_r).
      rewrite E in S2. apply Forall_app in S2. split; [apply S2|]. rewrite <- LN. rewrite E at 2. rewrite app_length. apply Nat.le_add_l. }
    destruct K as [K1 K2]. injection H as <- <-. cbn [l_samples l_params]. split; [exact K1|]. split; [|split; [reflexivity|exact K2]].
    unfold loop_get. cbn [l_params l_samples]. apply value_paced; [intros _; apply FB; reflexivity|exact K1|eapply Z.le_lt_trans; [|exact C]; apply inj_le; exact K2].
  - injection H as <- <-. split; [exact P|]. split; [reflexivity|]. split; [reflexivity|lia].
Qed.
Lemma time_fin : forall (a b : float64) (v : float32), (a = d0 \/ a = b) -> within (bpow radix2 32) b -> is_nan v = false -> is_finite (interp_t a b v : float64) = true.
Proof.
  intros a b v H W N. pose proof (clamp_unit acosf v N) as U. apply (within_mono 32 100) in W; [|lia].
  assert (WA : within (bpow radix2 100) a).
  { destruct H as [-> | ->]; [|exact W]. split; [reflexivity|]. change (Rabs 0 <= bpow radix2 100). rewrite Rabs_R0. apply bpow_ge_0. }
  pose proof (interp_t_within acosf a b _ WA W U) as K. unfold interp_t in K |- *. unfold A in *. rewrite (clamp_id acosf _ U) in K. apply K.
Qed.
Lemma stylus_loop_finite : forall fuel sm, Forall plain (s_raw (sm_state sm)) ->
  forall tips lm (v : float32) pt lm' out, Forall calm_tip tips -> paced (l_samples lm) ->
  (Z.of_nat (List.length (l_samples lm) + List.length tips) < 2 ^ 24)%Z ->
  (lp_enabled (l_params lm) = true -> good_bounds (l_params lm)) -> is_nan v = false ->
  model_stylus_loop fuel tips sm lm v pt = Ret (lm', out) ->
  Forall finite_result out /\ paced (l_samples lm') /\ (List.length (l_samples lm') <= List.length (l_samples lm) + List.length tips)%nat.
Proof.
  intros fuel sm F. induction tips as [|tip rest IH]; intros lm v pt lm' out T P C FB N H; cbn [model_stylus_loop List.length] in H, C |- *.
  - apply ret_inj in H. injection H as <- <-. split; [constructor|]. split; [exact P|lia].
  - pose proof (Forall_inv T) as T1. pose proof (Forall_inv_tail T) as T4. bind_inv H. bind_inv H. rename x into r0, x0 into r.
    destruct (loop_update lm (r_vel r) (t_time tip)) as [l1 v1] eqn:LU. bind_inv H. destruct x as [l2 o2]. apply ret_inj in H. injection H as <- <-.
    destruct (query_gentle _ _ _ _ _ F E) as [G0 TM].
    pose proof (interp_bounded _ _ _ _ _ 110 98 120 102 ltac:(lia) ltac:(lia) ltac:(lia) ltac:(lia) G0 (tip_gentle tip r0 T1 G0) N E0) as M.
    assert (FT : is_finite (r_time r : float64) = true).
    { apply interp_result_time in E0. unfold A in *. rewrite E0. cbn [make_result r_time]. apply time_fin; [exact TM|apply T1|exact N]. }
    destruct (loop_paced lm (r_vel r) (t_time tip) l1 v1 P (proj1 (proj2 M)) ltac:(lia) FB LU) as (L1 & L2 & L3 & L4).
    destruct (IH l1 v1 (t_time tip) l2 o2 T4 L1) as (K1 & K2 & K3); [lia|rewrite L3; exact FB|exact L2|exact E1|].
    split; [constructor; [split; [exact M|exact FT]|exact K1]|]. split; [exact K2|lia].
Qed.
Lemma stylus_calm : forall fuel sm tips lm pt lm' out, Forall plain (s_raw (sm_state sm)) -> Forall calm_tip tips -> paced (l_samples lm) ->
  (Z.of_nat (List.length (l_samples lm) + List.length tips) < 2 ^ 24)%Z ->
  (lp_enabled (l_params lm) = true -> good_bounds (l_params lm)) ->
  model_stylus fuel tips sm lm pt = Ret (lm', out) ->
  Forall finite_result out /\ paced (l_samples lm') /\ (List.length (l_samples lm') <= List.length (l_samples lm) + List.length tips)%nat.
Proof.
  intros fuel sm tips lm pt lm' out F T P C FB H. unfold model_stylus in H.
  eapply stylus_loop_finite; [exact F|exact T|exact P|exact C|exact FB| |exact H].
  apply value_paced; [exact FB|exact P|lia].
Qed.
Lemma stylus_finite : forall fuel (pp : PositionParams) rate sm tips lm pt lm' out, steady pp rate -> Forall plain (s_raw (sm_state sm)) -> Forall (tame_tip pp) tips -> paced (l_samples lm) ->
  (Z.of_nat (List.length (l_samples lm) + List.length tips) < 2 ^ 24)%Z ->
  (lp_enabled (l_params lm) = true -> good_bounds (l_params lm)) ->
  model_stylus fuel tips sm lm pt = Ret (lm', out) ->
  Forall finite_result out /\ paced (l_samples lm') /\ (List.length (l_samples lm') <= List.length (l_samples lm) + List.length tips)%nat.
Proof.
  intros fuel pp rate sm tips lm pt lm' out SD F T P C FB H. apply (stylus_calm fuel sm tips lm pt lm' out F); try assumption.
  eapply Forall_impl; [|exact T]. intros t. apply (tame_calm pp rate t SD).
Qed.

(** *** Parameters and inputs *)
Lemma good_ok : forall p : StrokeModelParams, validate_params p = OkStatus -> @steady_params acosf p -> lp_enabled (pp_loop (p_position p)) = true -> good_bounds (pp_loop (p_position p)).
Proof.
  intros p V (_ & _ & L) EN. destruct (L EN) as (L1 & L2 & L3 & L4).
  destruct (validate_params_parts p V) as (_ & VP & _). unfold validate_position in VP. apply and_then_ok in VP. destruct VP as [VL _].
  unfold validate_loop in VL. rewrite EN in VL. cbn [negb] in VL. destruct (_ || _) eqn:Q0 in VL; [discriminate VL|].
  destruct (fltb _ _ || _ || _) eqn:Q in VL; [discriminate VL|]. clear VL. apply orb_false_elim in Q, Q0. destruct Q as [Q Q3], Q0 as [_ Q0]. apply orb_false_elim in Q. destruct Q as [Q1 Q2].
  unfold A in *. cbn [fltb ieee] in *. destruct (f1_fin acosf) as [G1 G2]. destruct (f0_fin acosf) as [G3 G4].
  apply (ltb_false_R 24 128) in Q1; [|assumption|assumption]. apply (ltb_false_R 24 128) in Q2; [|assumption|assumption]. apply (ltb_false_R 24 128) in Q3; [|assumption|assumption].
  apply (ltb_false_R 24 128) in Q0; [|assumption|assumption].
  rewrite G2 in Q2. rewrite G4 in Q3, Q0. split; [|exact Q0]. split; [exact L1|]. split; [exact L2|]. split; (split; [assumption|]).
  - split; [exact (Rle_trans _ _ _ Q3 Q1)|exact Q2].
  - split; [exact Q3|exact (Rle_trans _ _ _ Q1 Q2)].
Qed.
Lemma steps_span : forall (p : StrokeModelParams) tip (a b : Input) n, validate_params p = OkStatus -> @steady_params acosf p -> @moderate_input acosf a -> @moderate_input acosf b ->
  dltb (i_time b) (i_time a) = false -> @tick_gap acosf a b -> number_of_steps tip a b (p_sampling p) (p_position p) = Ret (IOk n) ->
  span (i_time a) (i_time b) (B2R (sp_rate (p_sampling p) : float64)) n /\ ((n <= 0)%Z -> B2R (i_time a : float64) = B2R (i_time b : float64)).
Proof.
  intros p tip a b n V (SD & MO & _) (_ & [FA LA] & _) (_ & [FB LB] & _) DL [(g & FG & EG) TA] NS.
  pose proof (sd_rate _ _ SD) as RT.
  assert (FR : is_finite (sp_rate (p_sampling p) : float64) = true).
  { destruct (validate_params_parts p V) as (_ & _ & VS & _). unfold validate_sampling in VS. apply and_then_ok in VS. destruct VS as [VR _]. apply gt0_d_F in VR. apply VR. }
  unfold A in *. apply steps_rate in NS; [|unfold INT_MAX, A; lia]. destruct NS as [N1 N2]. unfold A in *. cbn [dltb ieee] in DL. apply (ltb_false_R 53 1024) in DL; [|assumption|assumption].
  cbn [dmul f2d d2f dsub ieee] in N2. unfold tick_apart in TA. assert (N3 : (n <= 1048576)%Z) by lia. clear SD V MO N1.
  set (ta := i_time a) in *. set (tb := i_time b) in *. set (rt := sp_rate (p_sampling p)) in *. clearbody ta tb rt. clear p a b tip. change float64 in ta, tb, rt.
  change (is_finite ta = true) in FA. change (is_finite tb = true) in FB. change (is_finite rt = true) in FR.
  pose proof eta_pos as T0. pose proof eta_small as T1.
  assert (D0 : 0 <= B2R tb - B2R ta <= 4294967296) by (apply Rabs_le_inv in LA, LB; lra).
  destruct (minus_fin 53 1024 _ _ tb ta FB FA) as [M1 M2]; [apply small_bound with (x := g); [reflexivity|]; rewrite EG; apply Rle_refl|].
  rewrite <- EG in M2, D0. rewrite rnd_id in M2 by apply fmt_B2R. set (d := B2R g) in *. set (df := Bminus mode_NE tb ta) in *.
  destruct (d2f_fin df M1) as [M3 M4].
  { apply small_le32. rewrite M2, Rabs_pos_eq by lra. apply Rle_trans with 4294967296; [lra|apply IZR_le; lia]. }
  destruct (f2d_fin _ M3) as [M5 M6]. rewrite M4, M2 in M6. set (fd := b32_to_b64 (b64_to_b32 df)) in *.
  pose proof (r32_error d) as E1. rewrite (Rabs_pos_eq d) in E1 by lra. apply Rabs_le_inv in E1.
  assert (P1 : 0 <= r32 d) by (apply rnd_ge0; [reflexivity|lra]). unfold u24 in E1.
  assert (B1 : 0 <= r32 d <= 8589934592) by lra.
  assert (B2 : 0 <= r32 d * B2R rt <= 8589934592 * 16384) by (split; [apply Rmult_le_pos; lra|apply Rmult_le_compat; lra]).
  destruct (mult_fin 53 1024 _ _ fd rt M5 FR) as [M7 M8].
  { apply small_le64. rewrite M6, Rabs_pos_eq by lra. apply Rle_trans with (8589934592 * 16384); [lra|rewrite <- mult_IZR; apply IZR_le; lia]. }
  specialize (N2 M7). rewrite M8, M6 in N2.
  pose proof (r64_error (r32 d * B2R rt)) as E2. rewrite (Rabs_pos_eq (r32 d * B2R rt)) in E2 by lra. apply Rabs_le_inv in E2. unfold u53 in E2.
  assert (LO : (d * (1 - / 16777216) - eta) * B2R rt <= r32 d * B2R rt) by (apply Rmult_le_compat_r; lra).
  assert (HI : eta * B2R rt <= eta * 16384) by (apply Rmult_le_compat_l; lra).
  assert (DR : 0 <= d * B2R rt) by (apply Rmult_le_pos; lra).
  assert (MAIN : d * (B2R rt * (1 - / 1048576)) <= IZR n + / 1048576).
  { replace ((d * (1 - / 16777216) - eta) * B2R rt) with (d * B2R rt - d * B2R rt * / 16777216 - eta * B2R rt) in LO by ring.
    replace (d * (B2R rt * (1 - / 1048576))) with (d * B2R rt - d * B2R rt * / 1048576) by ring. lra. }
  split.
  - constructor; try (split; assumption); try assumption; try lia. + exists g. auto. + rewrite <- EG. exact MAIN.
  - intros NZ. destruct TA as [TA|TA]; [exact TA|]. exfalso. rewrite <- EG in TA. fold d in TA. rewrite Rabs_pos_eq in TA by lra.
    assert (IN : IZR n <= 0) by (apply (IZR_le n 0); exact NZ).
    assert (r64 (r32 d * B2R rt) > 0); [|lra]. assert (r32 d * B2R rt >= / 2097152); [|lra].
    assert (r32 d >= / 2097152) by lra. apply Rle_ge. rewrite <- (Rmult_1_r (/ 2097152)). apply Rmult_le_compat; lra.
Qed.

(** *** The smoother's running sums *)
(** One more rounded addition to a sum [x] known up to [e]. *)
Definition scale (y : R) : Prop := (y = 0 \/ / 1048576 <= y) /\ y <= bpow radix2 100.
Lemma pow100_127 : 4 * bpow radix2 100 <= IZR (2 ^ 127).
Proof. change (IZR (2 ^ 127)) with (bpow radix2 127). change 4 with (bpow radix2 2). rewrite <- bpow_plus. apply bpow_le. lia. Qed.
Lemma abs_0 : forall x, Rabs x <= 0 -> x = 0.
Proof. intros x H. destruct (Req_dec x 0) as [E|E]; [exact E|]. apply Rabs_pos_lt in E. lra. Qed.
Lemma one_round : forall z x e y, Rabs (z - x) <= e -> Rabs x <= y -> e <= y / 2 -> scale y ->
  Rabs z <= 2 * y /\ Rabs (r32 z - x) <= e + y / 8388608.
Proof.
  intros z x e y H1 H2 H3 [H4 H5]. pose proof (r32_error z) as R1. pose proof eta_pos as T0. pose proof eta_small as T1. unfold u24 in *.
  assert (Z : Rabs z <= 3 / 2 * y).
  { replace z with ((z - x) + x) by ring. eapply Rle_trans; [apply Rabs_triang|]. lra. }
  pose proof (Rabs_pos z). split; [lra|]. destruct H4 as [->|H4].
  - assert (z = 0) by (apply abs_0; lra). subst z. assert (x = 0) by (apply abs_0; lra). subst x.
    rewrite rnd_0, Rminus_0_r, Rabs_R0. pose proof (Rabs_pos (0 - 0)). lra.
  - replace (r32 z - x) with ((r32 z - z) + (z - x)) by ring. eapply Rle_trans; [apply Rabs_triang|]. lra.
Qed.
Lemma two_rounds : forall z x e y, Rabs (z - x) <= e -> Rabs x <= y -> e <= y / 2 -> scale y ->
  Rabs z <= 2 * y /\ Rabs (r64 z) <= 2 * y /\ Rabs (r32 (r64 z) - x) <= e + y / 8388608.
Proof.
  intros z x e y H1 H2 H3 [H4 H5]. pose proof (r32_error (r64 z)) as R1. pose proof (r64_error z) as R2. pose proof eta_pos as T0. pose proof eta_small as T1. unfold u24, u53 in *.
  assert (Z : Rabs z <= 3 / 2 * y).
  { replace z with ((z - x) + x) by ring. eapply Rle_trans; [apply Rabs_triang|]. lra. }
  pose proof (Rabs_pos z). split; [lra|]. destruct H4 as [->|H4].
  - assert (z = 0) by (apply abs_0; lra). subst z. assert (x = 0) by (apply abs_0; lra). subst x.
    rewrite !rnd_0, Rminus_0_r, Rabs_R0. pose proof (Rabs_pos (0 - 0)). lra.
  - assert (Q : Rabs (r64 z) <= 25 / 16 * y).
    { replace (r64 z) with ((r64 z - z) + z) by ring. eapply Rle_trans; [apply Rabs_triang|]. lra. }
    split; [lra|].
    replace (r32 (r64 z) - x) with ((r32 (r64 z) - r64 z) + ((r64 z - z) + (z - x))) by ring.
    eapply Rle_trans; [apply Rabs_triang|]. pose proof (Rabs_triang (r64 z - z) (z - x)). lra.
Qed.
Definition near (w : float32) (x e : R) : Prop := is_finite w = true /\ Rabs (B2R w - x) <= e.
Lemma small_2 : forall z y, Rabs z <= 2 * y -> scale y -> small32 z.
Proof. intros z y Z [_ H]. apply small_le32. pose proof pow100_127. pose proof (bpow_gt_0 radix2 100). lra. Qed.
Lemma small_64 : forall z y, Rabs z <= 2 * y -> scale y -> small64 z.
Proof.
  intros z y Z [_ H]. apply small_le64. pose proof pow100_127. pose proof (bpow_gt_0 radix2 100).
  assert (IZR (2 ^ 127) <= IZR (2 ^ 1023)) by (apply IZR_le; apply Z.pow_le_mono_r; lia). lra.
Qed.
Lemma add_near : forall (w v : float32) x e y, near w x e -> is_finite v = true -> Rabs (x + B2R v) <= y -> e <= y / 2 -> scale y ->
  near (Bplus mode_NE w v) (x + B2R v) (e + y / 8388608).
Proof.
  intros w v x e y [F H] FV B E S. destruct (one_round (B2R w + B2R v) (x + B2R v) e y) as [Z Q]; try assumption.
  { replace (B2R w + B2R v - (x + B2R v)) with (B2R w - x) by ring. exact H. }
  destruct (plus_fin 24 128 _ _ w v F FV (small_2 _ _ Z S)) as [F1 E1]. split; [exact F1|]. rewrite E1. exact Q.
Qed.
Lemma sub_near : forall (w v : float32) x e y, near w (B2R v + x) e -> is_finite v = true -> Rabs x <= y -> e <= y / 2 -> scale y ->
  near (Bminus mode_NE w v) x (e + y / 8388608).
Proof.
  intros w v x e y [F H] FV B E S. destruct (one_round (B2R w - B2R v) x e y) as [Z Q]; try assumption.
  { replace (B2R w - B2R v - x) with (B2R w - (B2R v + x)) by ring. exact H. }
  destruct (minus_fin 24 128 _ _ w v F FV (small_2 _ _ Z S)) as [F1 E1]. split; [exact F1|]. rewrite E1. exact Q.
Qed.
Lemma add_near_64 : forall (w : float32) (v : float64) x e y, near w x e -> is_finite v = true -> Rabs (x + B2R v) <= y -> e <= y / 2 -> scale y ->
  near (b64_to_b32 (Bplus mode_NE (b32_to_b64 w) v)) (x + B2R v) (e + y / 8388608).
Proof.
  intros w v x e y [F H] FV B E S. destruct (two_rounds (B2R w + B2R v) (x + B2R v) e y) as (Z1 & Z2 & Q); try assumption.
  { replace (B2R w + B2R v - (x + B2R v)) with (B2R w - x) by ring. exact H. }
  destruct (f2d_fin w F) as [G1 G2]. destruct (plus_fin 53 1024 _ _ _ v G1 FV) as [F1 E1]; [rewrite G2; apply (small_64 _ y Z1 S)|].
  rewrite G2 in E1. destruct (d2f_fin _ F1) as [F2 E2]; [rewrite E1; apply (small_2 _ y Z2 S)|]. split; [exact F2|]. rewrite E2, E1. exact Q.
Qed.
Lemma sub_near_64 : forall (w : float32) (v : float64) x e y, near w (B2R v + x) e -> is_finite v = true -> Rabs x <= y -> e <= y / 2 -> scale y ->
  near (b64_to_b32 (Bminus mode_NE (b32_to_b64 w) v)) x (e + y / 8388608).
Proof.
  intros w v x e y [F H] FV B E S. destruct (two_rounds (B2R w - B2R v) x e y) as (Z1 & Z2 & Q); try assumption.
  { replace (B2R w - B2R v - x) with (B2R w - (B2R v + x)) by ring. exact H. }
  destruct (f2d_fin w F) as [G1 G2]. destruct (minus_fin 53 1024 _ _ _ v G1 FV) as [F1 E1]; [rewrite G2; apply (small_64 _ y Z1 S)|].
  rewrite G2 in E1. destruct (d2f_fin _ F1) as [F2 E2]; [rewrite E1; apply (small_2 _ y Z2 S)|]. split; [exact F2|]. rewrite E2, E1. exact Q.
Qed.

(** The sums over the samples. *)
Definition sdur (s : WSample) : R := B2R (ws_dur s : float64).
Definition stime (s : WSample) : R := B2R (ws_time s : float64).
Definition swx (s : WSample) : R := B2R (vx (ws_wpos s) : float32).
Definition swy (s : WSample) : R := B2R (vy (ws_wpos s) : float32).
Fixpoint total (f : WSample -> R) (l : list WSample) : R := match l with [] => 0 | s :: r => f s + total f r end.
Lemma total_snoc : forall f l s, total f (l ++ [s]) = total f l + f s.
Proof. intros f l s. induction l as [|a l IH]; cbn [app total]; [ring|rewrite IH; ring]. Qed.
Definition W27 : R := 134217728.
Record sample_ok (g : R) (s : WSample) : Prop := mkSO {
  so_dur : is_finite (ws_dur s : float64) = true /\ 0 <= sdur s <= g /\ (sdur s = 0 \/ / 1048576 <= sdur s);
  so_time : is_finite (ws_time s : float64) = true;
  so_wx : is_finite (vx (ws_wpos s) : float32) = true /\ Rabs (swx s) <= W27 * sdur s;
  so_wy : is_finite (vy (ws_wpos s) : float32) = true /\ Rabs (swy s) <= W27 * sdur s;
  so_dist : fin_le (bpow radix2 80) (ws_dist s)
}.
(** The duration of a sample is the time since the one before it. *)
Fixpoint linked (l : list WSample) : Prop :=
  match l with a :: ((b :: _) as r) => sdur b = stime b - stime a /\ linked r | _ => True end.
Lemma linked_total : forall l s t, linked (s :: l ++ [t]) -> total sdur (s :: l ++ [t]) = stime t - stime s + sdur s.
Proof.
  induction l as [|a l IH]; intros s t H; cbn [app] in *.
  - cbn [linked total] in *. destruct H as [H _]. rewrite H. ring.
  - destruct H as [H1 H2]. specialize (IH a t H2). cbn [total] in *. rewrite IH, H1. ring.
Qed.
Lemma total_pos : forall g l, Forall (sample_ok g) l -> 0 <= total sdur l /\ (total sdur l = 0 \/ / 1048576 <= total sdur l).
Proof.
  intros g l H. induction H as [|s l [[_ [D1 D2]] _ _ _ _] H [I1 I2]]; cbn [total]; [split; [lra|left; reflexivity]|].
  split; [lra|]. destruct D2 as [D2|D2]; [destruct I2 as [I2|I2]; [left; lra|right; lra]|right; lra].
Qed.
Lemma total_w : forall g l, Forall (sample_ok g) l -> Rabs (total swx l) <= W27 * total sdur l /\ Rabs (total swy l) <= W27 * total sdur l.
Proof.
  intros g l H. induction H as [|s l [_ _ [_ X] [_ Y] _] H [I1 I2]]; cbn [total]; [rewrite Rabs_R0, Rmult_0_r; lra|].
  split; (eapply Rle_trans; [apply Rabs_triang|]; unfold W27 in *; lra).
Qed.

(** The running sums after [j] operations, each with an error of at most b/2^23. *)
Definition close (b : R) (j : nat) (l : list WSample) (wsum : Vec2) (tsum : float32) : Prop :=
  near tsum (total sdur l) (INR j * (b / 8388608)) /\
  near (vx wsum) (total swx l) (INR j * (W27 * b / 8388608)) /\ near (vy wsum) (total swy l) (INR j * (W27 * b / 8388608)).
Lemma near_mono : forall w x e f, near w x e -> e <= f -> near w x f.
Proof. intros w x e f [F H] L. split; [exact F|lra]. Qed.
Lemma close_mono : forall b c j l w t, close b j l w t -> b <= c -> close c j l w t.
Proof.
  intros b c j l w t (H1 & H2 & H3) L. pose proof (pos_INR j). unfold W27 in *.
  split; [|split]; (eapply near_mono; [eassumption|]); unfold W27; apply Rmult_le_compat_l; lra.
Qed.
Definition scale2 (b : R) : Prop := (b = 0 \/ / 1048576 <= b) /\ b <= bpow radix2 60.
Lemma scale_27 : forall b, scale2 b -> scale b /\ scale (W27 * b).
Proof.
  intros b [H1 H2]. assert (E : bpow radix2 100 = 1099511627776 * bpow radix2 60) by (change (bpow radix2 100) with (bpow radix2 (40 + 60)); rewrite bpow_plus; reflexivity).
  unfold scale, W27. rewrite E. pose proof (bpow_gt_0 radix2 60) as P. set (q := bpow radix2 60) in *. clearbody q. clear E. destruct H1 as [->|H1].
  - split; (split; [left|]); lra.
  - split; (split; [right|]); lra.
Qed.
Lemma close_add : forall g b j l s wsum (tsum : float32), close b j l wsum tsum -> Forall (sample_ok g) l -> sample_ok g s ->
  total sdur (l ++ [s]) <= b -> (Z.of_nat j <= 4194304)%Z -> scale2 b ->
  close b (S j) (l ++ [s]) (vadd wsum (ws_wpos s)) (d2f (dadd (f2d tsum) (ws_dur s))).
Proof.
  intros g b j l s wsum tsum (H1 & H2 & H3) FL SO TB J SC. destruct (scale_27 b SC) as [S1 S2].
  assert (FA : Forall (sample_ok g) (l ++ [s])) by (apply Forall_app; auto).
  destruct (total_pos g _ FA) as [TP _]. destruct (total_w g _ FA) as [TX TY]. destruct SO as [[FD _] _ [FX _] [FY _] _].
  assert (JB : 0 <= INR j <= 4194304) by (rewrite INR_IZR_INZ; split; [apply IZR_le; lia|apply IZR_le; exact J]).
  rewrite !total_snoc in *. unfold W27 in *.
  assert (E1 : INR j * (b / 8388608) <= b / 2) by (apply Rle_trans with (4194304 * (b / 8388608)); [apply Rmult_le_compat_r; lra|lra]).
  assert (E2 : INR j * (134217728 * b / 8388608) <= 134217728 * b / 2) by (apply Rle_trans with (4194304 * (134217728 * b / 8388608)); [apply Rmult_le_compat_r; lra|lra]).
  unfold close. rewrite !total_snoc, S_INR. unfold W27. split; [|split].
  - eapply near_mono; [apply (add_near_64 tsum (ws_dur s) (total sdur l) _ b H1 FD); [rewrite Rabs_pos_eq by exact TP; exact TB|exact E1|exact S1]|lra].
  - eapply near_mono; [apply (add_near (vx wsum) (vx (ws_wpos s)) (total swx l) _ (134217728 * b) H2 FX); [eapply Rle_trans; [exact TX|lra]|exact E2|exact S2]|lra].
  - eapply near_mono; [apply (add_near (vy wsum) (vy (ws_wpos s)) (total swy l) _ (134217728 * b) H3 FY); [eapply Rle_trans; [exact TY|lra]|exact E2|exact S2]|lra].
Qed.
Lemma close_pop : forall g b j l s wsum (tsum : float32), close b j (s :: l) wsum tsum -> Forall (sample_ok g) (s :: l) ->
  total sdur (s :: l) <= b -> (Z.of_nat j <= 4194304)%Z -> scale2 b ->
  close b (S j) l (vsub wsum (ws_wpos s)) (d2f (dsub (f2d tsum) (ws_dur s))).
Proof.
  intros g b j l s wsum tsum (H1 & H2 & H3) FA TB J SC. destruct (scale_27 b SC) as [S1 S2].
  pose proof (Forall_inv FA) as SO. apply Forall_inv_tail in FA.
  destruct (total_pos g _ FA) as [TP _]. destruct (total_w g _ FA) as [TX TY]. destruct SO as [[FD [[D0 _] _]] _ [FX _] [FY _] _].
  assert (JB : 0 <= INR j <= 4194304) by (rewrite INR_IZR_INZ; split; [apply IZR_le; lia|apply IZR_le; exact J]).
  cbn [total] in *. unfold W27 in *.
  assert (E1 : INR j * (b / 8388608) <= b / 2) by (apply Rle_trans with (4194304 * (b / 8388608)); [apply Rmult_le_compat_r; lra|lra]).
  assert (E2 : INR j * (134217728 * b / 8388608) <= 134217728 * b / 2) by (apply Rle_trans with (4194304 * (134217728 * b / 8388608)); [apply Rmult_le_compat_r; lra|lra]).
  unfold close. rewrite S_INR. unfold W27. split; [|split].
  - eapply near_mono; [apply (sub_near_64 tsum (ws_dur s) (total sdur l) _ b H1 FD); [rewrite Rabs_pos_eq by exact TP; lra|exact E1|exact S1]|lra].
  - eapply near_mono; [apply (sub_near (vx wsum) (vx (ws_wpos s)) (total swx l) _ (134217728 * b) H2 FX); [eapply Rle_trans; [exact TX|lra]|exact E2|exact S2]|lra].
  - eapply near_mono; [apply (sub_near (vy wsum) (vy (ws_wpos s)) (total swy l) _ (134217728 * b) H3 FY); [eapply Rle_trans; [exact TY|lra]|exact E2|exact S2]|lra].
Qed.
Lemma dist_sum : forall (d v : float32) j, fin_le (INR j * bpow radix2 81) d -> fin_le (bpow radix2 80) v -> (Z.of_nat j <= 4194304)%Z ->
  fin_le (INR (S j) * bpow radix2 81) (Bplus mode_NE d v) /\ fin_le (INR (S j) * bpow radix2 81) (Bminus mode_NE d v).
Proof.
  intros d v j [FD BD] [FV BV] J. rewrite !INR_IZR_INZ in *.
  assert (FM : fmt 24 128 (IZR (Z.of_nat (S j)) * bpow radix2 81)) by (apply fmt_mult_pow; lia).
  assert (E : bpow radix2 81 = 2 * bpow radix2 80) by (change 81%Z with (1 + 80)%Z; rewrite bpow_plus; reflexivity).
  pose proof (bpow_gt_0 radix2 80) as P. rewrite Nat2Z.inj_succ, succ_IZR in *.
  assert (LT : (IZR (Z.of_nat j) + 1) * bpow radix2 81 < bpow radix2 128).
  { apply Rle_lt_trans with (bpow radix2 23 * bpow radix2 81); [|rewrite <- bpow_plus; apply bpow_lt; lia].
    apply Rmult_le_compat_r; [lra|]. apply IZR_le in J. change (bpow radix2 23) with 8388608. lra. }
  assert (Q : forall z, Rabs z <= Rabs (B2R d) + Rabs (B2R v) -> Rabs z <= (IZR (Z.of_nat j) + 1) * bpow radix2 81) by (intros z Z; rewrite E in *; lra).
  assert (SM : forall z, Rabs z <= Rabs (B2R d) + Rabs (B2R v) -> small32 z).
  { intros z Z. eapply small_fmt_bound; [reflexivity|exact FM|exact LT|apply Q; exact Z]. }
  assert (B2 : Rabs (B2R d - B2R v) <= Rabs (B2R d) + Rabs (B2R v)) by (unfold Rminus; rewrite <- (Rabs_Ropp (B2R v)); apply Rabs_triang).
  destruct (plus_fin 24 128 _ _ d v FD FV (SM _ (Rabs_triang _ _))) as [F1 E1]. destruct (minus_fin 24 128 _ _ d v FD FV (SM _ B2)) as [F2 E2].
  split; (split; [assumption|]); [rewrite E1|rewrite E2]; (apply rnd_abs_le; [reflexivity|exact FM|apply Q]); [apply Rabs_triang|exact B2].
Qed.
Lemma trim_ok : forall g b (limit : float64) t l wsum dsum tsum j,
  close b j (l ++ [t]) wsum tsum -> Forall (sample_ok g) (l ++ [t]) -> total sdur (l ++ [t]) <= b -> (Z.of_nat (j + List.length l) < 4194304)%Z -> scale2 b ->
  fin_le (INR j * bpow radix2 81) dsum -> is_finite limit = true -> B2R limit <= stime t ->
  exists dropped l' st', wobble_trim (l ++ [t]) wsum dsum tsum limit = Ret st' /\ l = dropped ++ l' /\ w_samples st' = l' ++ [t] /\
    close b (j + List.length dropped) (l' ++ [t]) (w_wsum st') (w_tsum st') /\ fin_le (INR (j + List.length dropped) * bpow radix2 81) (w_dsum st') /\
    (forall f r, l' ++ [t] = f :: r -> B2R limit <= stime f) /\ (forall d0 a, dropped = d0 ++ [a] -> stime a < B2R limit) /\
    (dropped = [] -> w_wsum st' = wsum /\ w_tsum st' = tsum).
Proof.
  intros g b limit t. induction l as [|s l IH]; intros wsum dsum tsum j CL FA TB J SC DS FL LT; cbn [app wobble_trim] in *.
  - pose proof (Forall_inv FA) as [_ FT _ _ _]. assert (K : dltb (ws_time t) limit = false) by (apply (ltb_false_R 53 1024); assumption).
    unfold A in *. rewrite K. exists [], [], (mkWState [t] wsum dsum tsum). rewrite Nat.add_0_r.
    split; [reflexivity|]. split; [reflexivity|]. split; [reflexivity|]. split; [exact CL|]. split; [exact DS|].
    split; [intros f r Q; injection Q as <- <-; exact LT|]. split; [intros [|] a Q; discriminate Q|split; reflexivity].
  - pose proof (Forall_inv FA) as [D FT _ _ DI]. destruct (dltb (ws_time s) limit) eqn:K.
    + cbn [List.length] in J. apply (ltb_R 53 1024) in K; [|exact FT|exact FL].
      pose proof (close_pop g b j _ s wsum tsum CL FA TB ltac:(lia) SC) as CP.
      pose proof (dist_sum _ _ j DS DI ltac:(lia)) as [_ DP].
      assert (TB' : total sdur (l ++ [t]) <= b) by (cbn [total] in TB; lra).
      destruct (IH _ _ _ (S j) CP (Forall_inv_tail FA) TB' ltac:(lia) SC DP FL LT) as (dropped & l' & st' & T1 & T2 & T3 & T4 & T5 & T6 & T7 & T8).
      exists (s :: dropped), l', st'. cbn [List.length]. rewrite <- plus_n_Sm. split; [exact T1|]. split; [rewrite T2; reflexivity|]. split; [exact T3|]. split; [exact T4|]. split; [exact T5|]. split; [exact T6|]. split; [|discriminate].
      intros d0 a Q. destruct dropped as [|x dropped].
      * destruct d0 as [|y [|]]; [|discriminate Q|discriminate Q]. injection Q as <-. exact K.
      * destruct d0 as [|y d0]; [discriminate Q|]. injection Q as _ Q. exact (T7 d0 a Q).
    + apply (ltb_false_R 53 1024) in K; [|exact FT|exact FL]. exists [], (s :: l), (mkWState (s :: l ++ [t]) wsum dsum tsum). rewrite Nat.add_0_r.
      split; [reflexivity|]. split; [reflexivity|]. split; [reflexivity|]. split; [exact CL|]. split; [exact DS|].
      split; [intros f r Q; injection Q as <- <-; exact K|]. split; [intros [|] a Q; discriminate Q|split; reflexivity].
Qed.
(** *** The average, and the smoothed position *)
Lemma weight_le : forall (d : float64) (x : float32), is_finite d = true -> 0 <= B2R d <= bpow radix2 40 -> (B2R d = 0 \/ / 1048576 <= B2R d) -> fin_le (bpow radix2 26) x ->
  is_finite (Bmult mode_NE (b64_to_b32 d) x) = true /\ Rabs (B2R (Bmult mode_NE (b64_to_b32 d) x)) <= W27 * B2R d.
Proof.
  intros d x FD BD DD [FX BX]. change (bpow radix2 26) with 67108864 in BX. change (bpow radix2 40) with 1099511627776 in BD.
  pose proof eta_pos as T0. pose proof eta_small as T1.
  assert (SM : forall z, Rabs z <= IZR (2 ^ 100) -> small32 z) by (intros z Z; apply small_le32; eapply Rle_trans; [exact Z|apply IZR_le; apply Z.pow_le_mono_r; lia]).
  change (IZR (2 ^ 100)) with 1267650600228229401496703205376 in SM.
  destruct (d2f_fin d FD) as [F1 E1]; [apply SM; rewrite Rabs_pos_eq; lra|].
  pose proof (r32_error (B2R d)) as R1. rewrite (Rabs_pos_eq (B2R d)) in R1 by lra. unfold u24 in R1.
  assert (P1 : 0 <= r32 (B2R d) <= (1 + / 1048576) * B2R d).
  { split; [apply rnd_ge0; [reflexivity|lra]|]. destruct DD as [DD|DD]; [rewrite DD, rnd_0; lra|]. apply Rabs_le_inv in R1. lra. }
  set (y := b64_to_b32 d) in *. clear R1.
  assert (B : Rabs (r32 (B2R d) * B2R x) <= 67108864 * ((1 + / 1048576) * B2R d)).
  { rewrite Rabs_mult, (Rabs_pos_eq (r32 (B2R d))) by lra. rewrite (Rmult_comm 67108864). apply Rmult_le_compat; try lra. apply Rabs_pos. }
  destruct (mult_fin 24 128 _ _ y x F1 FX) as [F2 E2]; [rewrite E1; apply SM; lra|]. split; [exact F2|]. rewrite E2, E1.
  pose proof (r32_error (r32 (B2R d) * B2R x)) as R2. unfold u24, W27 in *. set (z := r32 (B2R d) * B2R x) in *.
  destruct DD as [DD|DD].
  - assert (z = 0) by (apply abs_0; rewrite DD in B; lra). rewrite H, rnd_0, Rabs_R0. lra.
  - replace (r32 z) with ((r32 z - z) + z) by ring. eapply Rle_trans; [apply Rabs_triang|]. lra.
Qed.
Lemma minus_nn : forall x y : float32, is_nan x = false -> is_finite y = true -> is_nan (Bminus mode_NE x y) = false.
Proof.
  intros x y N F. destruct (is_finite x) eqn:FX.
  - pose proof (Bminus_correct 24 128 _ _ mode_NE x y FX F) as K. destruct (Rlt_bool _ _) in K.
    + destruct K as (_ & K & _). destruct (Bminus mode_NE x y); try reflexivity; discriminate K.
    + destruct K as (K & _). rewrite overflow_NE in K. apply B2SF_inf in K. rewrite K. reflexivity.
  - destruct x as [s|s| |s m e H]; try discriminate FX; [|discriminate N]. destruct y; try discriminate F; reflexivity.
Qed.
Lemma div_nn : forall x y : float32, is_nan x = false -> is_finite y = true -> B2R y <> 0 -> is_nan (Bdiv mode_NE x y) = false.
Proof.
  intros x y N F NZ. destruct (is_finite x) eqn:FX.
  - pose proof (Bdiv_correct 24 128 _ _ mode_NE x y NZ) as K. destruct (Rlt_bool _ _) in K.
    + destruct K as (_ & K & _). rewrite FX in K. destruct (Bdiv mode_NE x y); try reflexivity; discriminate K.
    + rewrite overflow_NE in K. apply B2SF_inf in K. rewrite K. reflexivity.
  - destruct x as [s|s| |s m e H]; try discriminate FX; [|discriminate N]. destruct y as [s'|s'| |s' m' e' H']; try discriminate F; [|reflexivity].
    exfalso. apply NZ. reflexivity.
Qed.
Lemma normalize_nn : forall a b v : float32, is_finite a = true -> is_finite b = true -> 0 <= B2R a <= B2R b -> is_nan v = false -> is_nan (normalize01 a b v : float32) = false.
Proof.
  intros a b v FA FB L N. unfold normalize01, A. cbn [feqb fltb fdiv fsub ieee]. destruct (Beqb a b) eqn:E.
  - destruct (Bltb a v); reflexivity.
  - apply (eqb_false_R 24 128) in E; [|exact FA|exact FB].
    assert (S : small32 (B2R b - B2R a)) by (apply small_bound with (x := b); [reflexivity|rewrite !Rabs_pos_eq by lra; lra]).
    destruct (minus_fin 24 128 _ _ b a FB FA S) as [M1 M2].
    assert (NZ : B2R (Bminus mode_NE b a) <> 0).
    { rewrite M2. unfold Rminus. apply (Plus_error.round_plus_neq_0 radix2 (SpecFloat.fexp 24 128) ZnearestE); [apply generic_format_B2R|apply generic_format_opp; apply generic_format_B2R|lra]. }
    pose proof (div_nn _ _ (minus_nn v a N FA) M1 NZ) as D. pose proof (clamp_unit acosf _ D) as (K & _).
    destruct (@clamp01 (ieee acosf) _); try reflexivity; discriminate K.
Qed.
(** *** The invariant of the smoother *)
(** [n] inputs so far; the running sums have seen [j] additions and subtractions.
    Either no sample has been dropped, or the samples span at least half the timeout. *)
Record winv (g tau : R) (n : nat) (i : Input) (st : WState) : Prop := mkWI {
  wi_last : exists l t, w_samples st = l ++ [t] /\ ws_time t = i_time i /\ vec_le (bpow radix2 26) (ws_pos t);
  wi_ok : Forall (sample_ok g) (w_samples st);
  wi_linked : linked (w_samples st);
  wi_sum : exists j, (j + List.length (w_samples st) = 2 * n)%nat /\ close (2 * (tau + g)) j (w_samples st) (w_wsum st) (w_tsum st) /\
     fin_le (INR j * bpow radix2 81) (w_dsum st) /\
     (j = n /\ close (total sdur (w_samples st)) n (w_samples st) (w_wsum st) (w_tsum st) \/ tau / 2 <= total sdur (w_samples st));
  wi_total : total sdur (w_samples st) <= tau + g + / 1048576
}.
Record wlimits (g tau : R) (n : nat) : Prop := mkWL {
  wl_tau : / 1024 <= tau <= 1048576;
  wl_g : 0 <= g;
  wl_n : INR n * (tau + g) <= 262144 * tau
}.
Lemma limits_n : forall g tau n, wlimits g tau n -> (Z.of_nat n <= 262144)%Z.
Proof.
  intros g tau n [T G N]. rewrite INR_IZR_INZ in N. apply le_IZR. apply Rmult_le_reg_r with tau; [lra|].
  eapply Rle_trans; [|exact N]. apply Rmult_le_compat_l; [apply IZR_le; lia|lra].
Qed.
Lemma limits_b : forall g tau n, wlimits g tau n -> (0 < n)%nat -> scale2 (2 * (tau + g)) /\ g <= bpow radix2 40.
Proof.
  intros g tau n [T G N] P. assert (1 <= INR n) by (apply (le_INR 1); exact P).
  assert (Q : tau + g <= 262144 * tau) by (eapply Rle_trans; [|exact N]; rewrite <- (Rmult_1_l (tau + g)) at 1; apply Rmult_le_compat_r; lra).
  assert (E40 : bpow radix2 40 = 1099511627776) by reflexivity. assert (E60 : bpow radix2 60 = 1152921504606846976) by reflexivity.
  unfold scale2. rewrite E40, E60. split; [split; [right|]|]; lra.
Qed.
Lemma start_winv : forall g tau (i : Input), wlimits g tau 1 -> is_finite (i_time i : float64) = true -> vec_le (bpow radix2 26) (i_pos i) ->
  winv g tau 1 i (mkWState [mkWSample (i_pos i) vzero f0 d0 (i_time i)] vzero f0 f0).
Proof.
  intros g tau i L FT P. pose proof L as [T G N].
  assert (Z32 : B2R (f0 : float32) = 0) by reflexivity. assert (Z64 : B2R (d0 : float64) = 0) by reflexivity.
  set (s := mkWSample (i_pos i) vzero f0 d0 (i_time i)).
  assert (SD : sdur s = 0) by reflexivity. assert (SX : swx s = 0) by reflexivity. assert (SY : swy s = 0) by reflexivity.
  assert (NZ : forall e, 0 <= e -> near (f0 : float32) 0 e) by (intros e E; split; [reflexivity|unfold A in *; rewrite Z32, Rminus_0_r, Rabs_R0; exact E]).
  assert (CL : forall b, 0 <= b -> close b 1 [s] vzero (f0 : float32)).
  { intros b B. unfold close. cbn [total]. rewrite SD, SX, SY, !Rplus_0_r. unfold W27. cbn [INR]. split; [|split]; apply NZ; lra. }
  constructor; cbn [w_samples w_wsum w_tsum w_dsum].
  - exists [], s. split; [reflexivity|]. split; [reflexivity|exact P].
  - constructor; [|constructor]. constructor; rewrite ?SD, ?SX, ?SY, ?Rabs_R0; unfold W27.
    + split; [reflexivity|]. split; [lra|left; reflexivity].
    + exact FT.
    + split; [reflexivity|lra].
    + split; [reflexivity|lra].
    + split; [reflexivity|]. cbn [s ws_dist]. unfold A in *. rewrite Z32, Rabs_R0. apply bpow_ge_0.
  - exact I.
  - exists 1%nat. split; [reflexivity|]. split; [apply CL; lra|]. split.
    + split; [reflexivity|]. unfold A in *. rewrite Z32, Rabs_R0. cbn [INR]. pose proof (bpow_gt_0 radix2 81). lra.
    + left. split; [reflexivity|]. apply CL. cbn [total]. rewrite SD. lra.
  - cbn [total]. rewrite SD. lra.
Qed.
Lemma linked_app : forall a b, linked (a ++ b) -> linked b.
Proof. induction a as [|x a IH]; intros b H; [exact H|]. apply IH. cbn [app] in H. destruct (a ++ b) eqn:E; [exact I|]. apply H. Qed.
Lemma linked_snoc : forall l t s, linked (l ++ [t]) -> sdur s = stime s - stime t -> linked ((l ++ [t]) ++ [s]).
Proof.
  induction l as [|x l IH]; intros t s H D; [cbn; auto|]. cbn [app] in H |- *. specialize (IH t s).
  destruct (l ++ [t]) as [|y r] eqn:E; [destruct l; discriminate E|]. cbn [app] in *. destruct H as [H1 H2]. split; [exact H1|]. apply IH; assumption.
Qed.
(** The sums give a position of moderate size. *)
Lemma average_le : forall g tau n st j, wlimits g tau n -> Forall (sample_ok g) (w_samples st) -> (j + List.length (w_samples st) = 2 * n)%nat ->
  close (2 * (tau + g)) j (w_samples st) (w_wsum st) (w_tsum st) ->
  (j = n /\ close (total sdur (w_samples st)) n (w_samples st) (w_wsum st) (w_tsum st) \/ tau / 2 <= total sdur (w_samples st)) ->
  is_finite (w_tsum st : float32) = true /\ (B2R (w_tsum st : float32) <> 0 -> vec_le (bpow radix2 28) (vdiv (w_wsum st) (w_tsum st))).
Proof.
  intros g tau n st j L FO JN CL MODE. pose proof (limits_n _ _ _ L) as NN. destruct L as [T G N].
  set (l := w_samples st) in *. set (S := total sdur l) in *. destruct (total_pos g l FO) as [SP _]. destruct (total_w g l FO) as [WX WY]. fold S in SP, WX, WY.
  assert (KEY : near (w_tsum st) S (S / 4) /\ near (vx (w_wsum st)) (total swx l) (W27 * S / 4) /\ near (vy (w_wsum st)) (total swy l) (W27 * S / 4)).
  { destruct MODE as [[-> (C1 & C2 & C3)]|M].
    - assert (NB : 0 <= INR n <= 262144) by (rewrite INR_IZR_INZ; split; apply IZR_le; lia). fold S in C1, C2, C3.
      split; [eapply near_mono; [exact C1|]|split; (eapply near_mono; [eassumption|])]; unfold W27.
      + apply Rle_trans with (262144 * (S / 8388608)); [apply Rmult_le_compat_r; lra|lra].
      + apply Rle_trans with (262144 * (134217728 * S / 8388608)); [apply Rmult_le_compat_r; lra|lra].
      + apply Rle_trans with (262144 * (134217728 * S / 8388608)); [apply Rmult_le_compat_r; lra|lra].
    - destruct CL as (C1 & C2 & C3). fold S in C1, M.
      assert (JB : INR j <= 2 * INR n) by (replace 2 with (INR 2) by reflexivity; rewrite <- mult_INR; apply le_INR; lia).
      assert (NB : INR j * (2 * (tau + g)) <= 1048576 * tau).
      { apply Rle_trans with (2 * INR n * (2 * (tau + g))); [apply Rmult_le_compat_r; lra|]. lra. }
      split; [eapply near_mono; [exact C1|]|split; (eapply near_mono; [eassumption|])]; unfold W27; unfold Rdiv; rewrite <- ?Rmult_assoc; lra. }
  destruct KEY as (K1 & K2 & K3). destruct K1 as [F1 K1]. split; [exact F1|]. intros NZ.
  assert (P : 0 < S). { destruct SP as [SP|SP]; [exact SP|]. exfalso. apply NZ. rewrite <- SP in K1. apply abs_0. rewrite Rminus_0_r in K1. unfold A in *. lra. }
  assert (TP : 3 / 4 * S <= B2R (w_tsum st : float32)) by (apply Rabs_le_inv in K1; unfold A in *; lra).
  assert (Q : forall (w : float32) x, near w x (W27 * S / 4) -> Rabs x <= W27 * S -> fin_le (bpow radix2 28) (Bdiv mode_NE w (w_tsum st))).
  { intros w x [FW NW] BX. assert (BW : Rabs (B2R w) <= 5 / 4 * (W27 * S)).
    { replace (B2R w) with ((B2R w - x) + x) by ring. eapply Rle_trans; [apply Rabs_triang|]. lra. }
    assert (B : Rabs (B2R w / B2R (w_tsum st : float32)) <= bpow radix2 28).
    { unfold A in *. unfold Rdiv. rewrite Rabs_mult, (Rabs_pos_eq (/ B2R _)) by (left; apply Rinv_0_lt_compat; lra).
      apply Rmult_le_reg_r with (B2R (w_tsum st : float32)); [lra|]. rewrite Rmult_assoc, Rinv_l, Rmult_1_r by exact NZ.
      change (bpow radix2 28) with 268435456. unfold W27 in *. lra. }
    assert (FM : fmt 24 128 (bpow radix2 28)) by (apply fmt_bpow; [reflexivity|lia]).
    destruct (div_fin 24 128 _ _ w (w_tsum st) FW NZ) as [D1 D2]; [eapply small_fmt_bound; [reflexivity|exact FM|apply bpow_lt; lia|exact B]|].
    split; [exact D1|]. rewrite D2. apply rnd_abs_le; [reflexivity|exact FM|exact B]. }
  split; [exact (Q _ _ K2 WX)|exact (Q _ _ K3 WY)].
Qed.
Lemma minus_26 : forall a b : float32, fin_le (bpow radix2 26) a -> fin_le (bpow radix2 26) b -> fin_le (bpow radix2 27) (Bminus mode_NE a b).
Proof.
  intros a b [FA BA] [FB BB]. assert (B : Rabs (B2R a - B2R b) <= bpow radix2 27).
  { unfold Rminus. eapply Rle_trans; [apply Rabs_triang|]. rewrite Rabs_Ropp. change (bpow radix2 27) with 134217728. change (bpow radix2 26) with 67108864 in *. lra. }
  assert (FM : fmt 24 128 (bpow radix2 27)) by (apply fmt_bpow; [reflexivity|lia]).
  destruct (minus_fin 24 128 _ _ a b FA FB) as [D1 D2]; [eapply small_fmt_bound; [reflexivity|exact FM|apply bpow_lt; lia|exact B]|].
  split; [exact D1|]. rewrite D2. apply rnd_abs_le; [reflexivity|exact FM|exact B].
Qed.
Lemma limit_near : forall (t tau : float64), is_finite t = true -> is_finite tau = true -> Rabs (B2R t) <= 2147483648 -> / 1024 <= B2R tau <= 1048576 ->
  is_finite (Bminus mode_NE t tau) = true /\ B2R t - B2R tau - / 1048576 <= B2R (Bminus mode_NE t tau) <= B2R t - B2R tau + / 1048576 /\ B2R (Bminus mode_NE t tau) <= B2R t.
Proof.
  intros t tau FT FU BT BU. pose proof eta_pos as T0. pose proof eta_small as T1. apply Rabs_le_inv in BT.
  assert (B : Rabs (B2R t - B2R tau) <= 4294967296) by (apply Rabs_le; lra).
  destruct (minus_fin 53 1024 _ _ t tau FT FU) as [F1 E1].
  { apply small_le64. eapply Rle_trans; [exact B|]. apply IZR_le. transitivity (2 ^ 32)%Z; [vm_compute; discriminate|apply Z.pow_le_mono_r; lia]. }
  split; [exact F1|]. rewrite E1. pose proof (r64_error (B2R t - B2R tau)) as R1. apply Rabs_le_inv in R1. unfold u53 in R1.
  split; [split; lra|]. apply rnd_le_fmt; [reflexivity|apply fmt_B2R|lra].
Qed.
Lemma smooth_step : forall (g tau : R) n (w : Wobble) (i0 i : Input) w' c,
  winv g tau n i0 (w_state w) -> wlimits g tau (S n) -> wp_enabled (w_params w) = true ->
  is_finite (wp_timeout (w_params w) : float64) = true -> B2R (wp_timeout (w_params w) : float64) = tau ->
  is_finite (wp_floor (w_params w) : float32) = true -> is_finite (wp_ceiling (w_params w) : float32) = true ->
  0 <= B2R (wp_floor (w_params w) : float32) <= B2R (wp_ceiling (w_params w) : float32) ->
  vec_le (bpow radix2 26) (i_pos i) -> is_finite (i_time i : float64) = true -> Rabs (B2R (i_time i : float64)) <= 2147483648 ->
  B2R (i_time i0 : float64) <= B2R (i_time i : float64) <= B2R (i_time i0 : float64) + g -> @tick_gap acosf i0 i ->
  wobble_update w (i_pos i) (i_time i) = Ret (w', c) -> winv g tau (S n) i (w_state w') /\ vec_le (bpow radix2 30) c.
Proof.
  intros g tau n w i0 i w' c [(l & t & EL & ET & PT) OK LK (j & JN & CL & DS & MODE) TT] LIM EN FU EU FFL FCE LFC PI FT BT ORD [(d & FD & ED) AP] H.
  unfold A in *. unfold wobble_update in H. rewrite EN in H. cbn [negb] in H. rewrite EL in H. unfold back in H.
  rewrite app_length, Nat.add_comm, nth_error_app2 in H by (cbn; lia). cbn [List.length Nat.add Nat.pred] in H. rewrite Nat.sub_diag in H. cbn [nth_error] in H.
  rewrite ET in H. rewrite EL in *.
  pose proof LIM as [LT LG LN]. destruct (limits_b g tau (S n) LIM ltac:(lia)) as [SB GB]. pose proof (limits_n g tau (S n) LIM) as NB.
  (* the new sample *)
  set (delta := dsub (i_time i) (i_time i0)) in *.
  assert (DE : is_finite (delta : float64) = true /\ B2R (delta : float64) = B2R (i_time i : float64) - B2R (i_time i0 : float64)).
  { assert (F0 : is_finite (i_time i0 : float64) = true).
    { apply Forall_app in OK. destruct OK as [_ OK]. apply Forall_inv in OK. destruct OK as [_ F0 _ _ _]. unfold A in *. rewrite ET in F0. exact F0. }
    unfold delta, A in *. cbn [dsub ieee]. destruct (minus_fin 53 1024 _ _ (i_time i : float64) (i_time i0 : float64) FT F0) as [M1 M2].
    { rewrite <- ED. eapply small_bound; [reflexivity|apply Rle_refl]. }
    split; [exact M1|]. rewrite M2, <- ED. apply rnd_id. apply fmt_B2R. }
  destruct DE as [FDE EDE]. clear d FD ED.
  set (s := mkWSample (i_pos i) (vscale (d2f delta) (i_pos i)) (distance (i_pos i) (ws_pos t)) delta (i_time i)) in *.
  assert (SDU : sdur s = B2R (i_time i : float64) - B2R (i_time i0 : float64)) by exact EDE.
  assert (SDR : 0 <= sdur s <= g /\ (sdur s = 0 \/ / 1048576 <= sdur s)).
  { rewrite SDU. split; [lra|]. destruct AP as [AP|AP]; [left; lra|right]. rewrite Rabs_pos_eq in AP by lra. exact AP. }
  assert (SO : sample_ok g s).
  { destruct PI as [PX PY]. destruct PT as [TX TY].
    assert (DB : 0 <= B2R (delta : float64) <= bpow radix2 40) by (change (0 <= sdur s <= bpow radix2 40); lra).
    assert (DD : B2R (delta : float64) = 0 \/ / 1048576 <= B2R (delta : float64)) by (apply SDR).
    constructor.
    - split; [exact FDE|exact SDR].
    - exact FT.
    - exact (weight_le delta _ FDE DB DD PX).
    - exact (weight_le delta _ FDE DB DD PY).
    - cbn [s ws_dist]. unfold distance.
      assert (V : vec_le (bpow radix2 78) (vsub (ws_pos t) (i_pos i))).
      { split; [eapply fin_le_pow; [|exact (minus_26 _ _ TX PX)]; lia|eapply fin_le_pow; [|exact (minus_26 _ _ TY PY)]; lia]. }
      apply (magnitude_le 78) in V; [|lia]. destruct V as [V1 V2]. split; [exact V1|]. rewrite Rabs_pos_eq; [apply V2|apply V2]. }
  assert (TN : total sdur ((l ++ [t]) ++ [s]) <= 2 * (tau + g)) by (rewrite total_snoc; lra).
  assert (OK2 : Forall (sample_ok g) ((l ++ [t]) ++ [s])) by (apply Forall_app; split; [exact OK|constructor; [exact SO|constructor]]).
  assert (STT : stime t = B2R (i_time i0 : float64)) by exact (f_equal (fun x : float64 => B2R x) ET).
  assert (LK2 : linked ((l ++ [t]) ++ [s])).
  { apply linked_snoc; [exact LK|]. unfold A in *. rewrite SDU, STT. reflexivity. }
  assert (LEN : (j + List.length (l ++ [t]) = 2 * n)%nat) by exact JN. rewrite app_length in LEN. cbn [List.length] in LEN.
  pose proof (close_add g _ j _ s _ _ CL OK SO TN ltac:(lia) SB) as CA.
  destruct SO as [SO1 SO2 SO3 SO4 SO5]. pose proof (dist_sum _ _ j DS SO5 ltac:(lia)) as [DA _].
  destruct (limit_near (i_time i) (wp_timeout (w_params w)) FT FU BT ltac:(rewrite EU; exact LT)) as (FL & LL & LM). rewrite EU in LL.
  assert (J2 : (Z.of_nat (S j + List.length (l ++ [t])) < 4194304)%Z) by (rewrite app_length; cbn [List.length]; lia).
  destruct (trim_ok g _ (dsub (i_time i) (wp_timeout (w_params w))) s (l ++ [t]) _ (fadd (w_dsum (w_state w)) (ws_dist s)) _ (S j) CA OK2 TN J2 SB DA FL LM)
    as (dropped & l' & st' & T1 & T2 & T3 & T4 & T5 & T6 & T7 & T8).
  unfold A in *. rewrite T1 in H. cbn [obind] in H. rewrite <- T3 in T4, T6.
  assert (EQ : (l ++ [t]) ++ [s] = dropped ++ w_samples st') by (rewrite T2, T3, app_assoc; reflexivity).
  assert (OK3 : Forall (sample_ok g) (w_samples st')) by (rewrite EQ in OK2; apply Forall_app in OK2; apply OK2).
  assert (LK3 : linked (w_samples st')) by (rewrite EQ in LK2; apply linked_app in LK2; exact LK2).
  assert (JN3 : (S j + List.length dropped + List.length (w_samples st') = 2 * S n)%nat).
  { apply (f_equal (@List.length _)) in EQ. rewrite !app_length in EQ. cbn [List.length] in EQ. lia. }
  assert (ST : stime s = B2R (i_time i : float64)) by reflexivity.
  (* what the samples span *)
  assert (SPAN : total sdur (w_samples st') <= tau + g + / 1048576).
  { rewrite T3 in *. destruct l' as [|f l']; cbn [app] in *.
    - cbn [total]. lra.
    - rewrite linked_total by exact LK3. specialize (T6 f _ eq_refl). cbn [dsub ieee] in T6. pose proof (Forall_inv OK3) as [(_ & DF & _) _ _ _ _]. lra. }
  assert (MODE3 : (S j + List.length dropped = S n)%nat /\ close (total sdur (w_samples st')) (S n) (w_samples st') (w_wsum st') (w_tsum st') \/ tau / 2 <= total sdur (w_samples st')).
  { destruct dropped as [|a0 dr].
    - destruct (T8 eq_refl) as [E1 E2]. cbn [app] in EQ. rewrite E1, E2, <- EQ in *. destruct MODE as [[-> MC]|MC].
      + left. split; [cbn [List.length]; lia|]. assert (SN : total sdur (l ++ [t]) <= total sdur ((l ++ [t]) ++ [s])) by (pose proof (total_snoc sdur (l ++ [t]) s) as TS; unfold A in *; lra).
        apply (close_add g); try assumption; try lia; [exact (close_mono _ _ _ _ _ _ MC SN)|constructor; assumption|apply Rle_refl|].
        destruct (total_pos g _ OK2) as [_ TQ]. split; [exact TQ|]. destruct SB as [_ SB]. eapply Rle_trans; [exact TN|exact SB].
      + right. pose proof (total_snoc sdur (l ++ [t]) s) as TS. unfold A in *. lra.
    - right. assert (NE : a0 :: dr <> []) by discriminate. destruct (exists_last NE) as (d0 & a & ED). rewrite ED in *. specialize (T7 d0 a eq_refl). cbn [dsub ieee] in T7.
      rewrite EQ, <- app_assoc in LK2. apply linked_app in LK2. cbn [app] in LK2. rewrite T3 in *. destruct l' as [|f l']; cbn [app] in *.
      + destruct LK2 as [LK2 _]. cbn [total]. lra.
      + destruct LK2 as [LK2 _]. rewrite linked_total by exact LK3. lra. }
  assert (WI : winv g tau (S n) i st').
  { constructor.
    - exists l', s. split; [exact T3|]. split; [reflexivity|exact PI].
    - exact OK3.
    - exact LK3.
    - exists (S j + List.length dropped)%nat. split; [exact JN3|]. split; [exact T4|]. split; [exact T5|exact MODE3].
    - exact SPAN. }
  destruct (average_le g tau (S n) st' _ LIM OK3 JN3 T4 MODE3) as [FTS AV].
  assert (P30 : vec_le (bpow radix2 28) (i_pos i)) by (apply (vec_le_pow 26 28); [lia|exact PI]).
  destruct (feqb (w_tsum st') f0) eqn:E0.
  - apply ret_inj in H. injection H as <- <-. split; [exact WI|]. apply (vec_le_pow 26 30); [lia|exact PI].
  - apply ret_inj in H. injection H as <- <-. split; [exact WI|]. cbn [feqb ieee] in E0. rewrite f0_eq in E0. apply (eqb_false_R 24 128) in E0; [|exact FTS|reflexivity].
    change (bpow radix2 30) with (bpow radix2 (28 + 2)). apply interp_v_le; [lia|exact (AV E0)|exact P30|].
    apply normalize_nn; try assumption. apply div_nn; [|exact FTS|exact E0]. destruct T5 as [FDS _]. destruct (w_dsum st'); try reflexivity; discriminate FDS.
Qed.

(** *** The invariant *)
Definition count (es : list entry) : nat := List.length (List.concat (map snd es)).
(** What the predictor holds: the last position, or filters that have seen
    positions within 2^30 and, if their noise has a certificate, stay small. *)
Definition kalman_small (k : KPredictor) : Prop :=
  forall cert, filter_certified acosf (kp_process (k_params k)) (kp_measure (k_params k)) cert = true ->
    filter_small acosf (kp_process (k_params k)) (kp_measure (k_params k)) cert (k_x k) /\
    filter_small acosf (kp_process (k_params k)) (kp_measure (k_params k)) cert (k_y k).
Definition pred_le (o : option Predictor) : Prop :=
  match o with Some (PStrokeEnd _ _ (Some c)) => vec_le (bpow radix2 30) c | Some (PKal k) => kalman_small k | _ => True end.
Record finv (p : StrokeModelParams) (es : list entry) (seen : list Input) (c : core) : Prop := mkFI {
  fi_tip : lively (unit_of (p_position p)) (count es) (co_tip c) /\ is_finite (t_time (co_tip c) : float64) = true /\
           B2R (t_time (co_tip c) : float64) = B2R (i_time (li_input (co_last c)) : float64);
  fi_raw : Forall plain (s_raw (co_s c));
  fi_latest : exists l i, seen = l ++ [i] /\ latest acosf (i_time i) (s_raw (co_s c));
  fi_l : paced (co_l c) /\ (List.length (co_l c) <= count es)%nat;
  fi_pred : pred_le (co_pred c);
  fi_last : vec_le (bpow radix2 30) (li_corrected (co_last c)) /\ @moderate_input acosf (li_input (co_last c));
  fi_in : exists l, map fst es = l ++ [li_input (co_last c)];
  fi_es : Forall (fun e => Forall finite_result (snd e)) es;
  fi_w : wp_enabled (p_wobble p) = true -> forall g, @smoothing_within acosf p g (map fst es) ->
    winv g (B2R (wp_timeout (p_wobble p) : float64)) (List.length (map fst es)) (li_input (co_last c)) (co_w c)
}.
Definition quiet (p : StrokeModelParams) (es : list entry) (seen : list Input) : Prop :=
  @steady_params acosf p /\ @moderate_inputs acosf p (map fst es) seen /\ (count es <= Z.to_nat 1048576)%nat.

Lemma count_snoc : forall es i out, count (es ++ [(i, out)]) = (count es + List.length out)%nat.
Proof. intros es i out. unfold count. rewrite map_app, concat_app, app_length. cbn [map List.concat snd]. rewrite app_nil_r. reflexivity. Qed.
Lemma sorted_prefix : forall (T : Type) (Q : T -> T -> Prop) (l : list T) (x : T), Sorted Q (l ++ [x]) -> Sorted Q l.
Proof.
  intros T Q l x. induction l as [|a l IH]; intros S; [constructor|]. cbn [app] in S. apply Sorted_inv in S. destruct S as [S H].
  constructor; [exact (IH S)|]. destruct l as [|b l]; constructor. inversion H. assumption.
Qed.
Lemma within_prefix : forall (p : StrokeModelParams) g (acc : list Input) (i : Input), @smoothing_within acosf p g (acc ++ [i]) -> @smoothing_within acosf p g acc.
Proof.
  intros p g acc i (T & G & F & S & N). apply Forall_app in F. split; [exact T|]. split; [exact G|]. split; [apply F|]. split; [exact (sorted_prefix _ _ _ _ S)|].
  eapply Rle_trans; [|exact N]. apply Rmult_le_compat_r; [lra|]. apply le_INR. rewrite app_length. lia.
Qed.
Lemma within_limits : forall (p : StrokeModelParams) g (acc : list Input) n, @smoothing_within acosf p g acc -> List.length acc = n -> wlimits g (B2R (wp_timeout (p_wobble p) : float64)) n.
Proof. intros p g acc n (T & G & _ & _ & N) <-. constructor; assumption. Qed.
(** Without the last input. *)
Lemma inputs_snoc : forall (p : StrokeModelParams) (acc seen l : list Input) (a i : Input), acc = l ++ [a] -> @moderate_inputs acosf p (acc ++ [i]) (seen ++ [i]) ->
  @moderate_inputs acosf p acc seen /\ @tick_gap acosf a i /\ @moderate_input acosf i /\ (forall l j, seen = l ++ [j] -> spaced (i_time j) (i_time i)).
Proof.
  intros p acc seen l a i EA (F2 & S & SG & SM). apply Forall_app in F2. destruct F2 as [F2 G2]. apply Forall_inv in G2.
  assert (TG : @tick_gap acosf a i) by (subst acc; apply sorted_init in SG; apply SG). apply sorted_prefix in SG.
  assert (S2 : forall l j, seen = l ++ [j] -> @tick_apart acosf j i) by (intros l' j ->; apply sorted_init in S; apply S). apply sorted_prefix in S.
  split; [|split; [exact TG|split; [exact G2|]]].
  - split; [exact F2|]. split; [exact S|]. split; [exact SG|]. intros ON. destruct (SM ON) as (E & g & W). apply app_inj_tail in E. destruct E as [-> _].
    split; [reflexivity|]. exists g. exact (within_prefix _ _ _ _ W).
  - intros l' j E. pose proof (S2 l' j E) as AP. rewrite E in F2. apply Forall_app in F2. destruct F2 as [_ F2]. apply Forall_inv in F2.
    destruct F2 as (_ & [T1 T2] & _). destruct G2 as (_ & [U1 U2] & _). unfold spaced. auto.
Qed.
(** Without a rejected Move that left a trace: smoothing is off. *)
Lemma seen_snoc : forall (p : StrokeModelParams) (acc seen : list Input) (i : Input), (List.length acc <= List.length seen)%nat -> @moderate_inputs acosf p acc (seen ++ [i]) ->
  wp_enabled (p_wobble p) = false /\ @moderate_inputs acosf p acc seen /\ @moderate_input acosf i /\ (forall l j, seen = l ++ [j] -> spaced (i_time j) (i_time i)).
Proof.
  intros p acc seen i LE (F2 & S & SG & SM). apply Forall_app in F2. destruct F2 as [F2 G2]. apply Forall_inv in G2.
  assert (OFF : wp_enabled (p_wobble p) = false).
  { destruct (wp_enabled (p_wobble p)) eqn:ON; [|reflexivity]. destruct (SM ON) as [E _]. apply (f_equal (@List.length _)) in E. rewrite app_length in E. cbn [List.length] in E. unfold A in *. lia. }
  assert (S2 : forall l j, seen = l ++ [j] -> @tick_apart acosf j i) by (intros l' j ->; apply sorted_init in S; apply S). apply sorted_prefix in S.
  split; [exact OFF|]. split; [|split; [exact G2|]].
  - split; [exact F2|]. split; [exact S|]. split; [exact SG|]. intros ON. unfold A in *. rewrite OFF in ON. discriminate ON.
  - intros l' j E. pose proof (S2 l' j E) as AP. rewrite E in F2. apply Forall_app in F2. destruct F2 as [_ F2]. apply Forall_inv in F2.
    destruct F2 as (_ & [T1 T2] & _). destruct G2 as (_ & [U1 U2] & _). unfold spaced. auto.
Qed.
Lemma wobble_valid : forall p : StrokeModelParams, validate_params p = OkStatus -> wp_enabled (p_wobble p) = true ->
  is_finite (wp_timeout (p_wobble p) : float64) = true /\ is_finite (wp_floor (p_wobble p) : float32) = true /\ is_finite (wp_ceiling (p_wobble p) : float32) = true /\
  0 <= B2R (wp_floor (p_wobble p) : float32) <= B2R (wp_ceiling (p_wobble p) : float32).
Proof.
  intros p V ON. destruct (validate_params_parts p V) as (VW & _). unfold validate_wobble in VW. rewrite ON in VW. cbn [negb] in VW.
  apply and_then_ok in VW. destruct VW as [VT VW]. apply and_then_ok in VW. destruct VW as [VF VW]. apply and_then_ok in VW. destruct VW as [VC VW].
  apply (ge0_d_F acosf) in VT. apply (ge0_f_iff acosf) in VF. apply (finite_f_F acosf) in VC. destruct VF as [F1 F2].
  destruct (fltb (wp_ceiling (p_wobble p)) (wp_floor (p_wobble p))) eqn:LT; [discriminate VW|].
  split; [apply VT|]. split; [exact F1|]. split; [exact VC|]. split; [exact F2|].
  unfold A in LT. cbn [fltb ieee] in LT. apply (ltb_false_R 24 128) in LT; [exact LT|assumption|assumption].
Qed.
(** A Move through the smoother. *)
Lemma smooth_move : forall (p : StrokeModelParams) (es : list entry) (seen l : list Input) (c0 : core) (w : Wobble) (i : Input) w' c,
  validate_params p = OkStatus -> w_params w = p_wobble p -> co_w c0 = w_state w -> finv p es seen c0 -> map fst es = l ++ [li_input (co_last c0)] ->
  @moderate_inputs acosf p (map fst es ++ [i]) (seen ++ [i]) -> dltb (i_time i) (i_time (li_input (co_last c0))) = false ->
  wobble_update w (i_pos i) (i_time i) = Ret (w', c) ->
  vec_le (bpow radix2 30) c /\
  (wp_enabled (p_wobble p) = true -> forall g, @smoothing_within acosf p g (map fst es ++ [i]) ->
     winv g (B2R (wp_timeout (p_wobble p) : float64)) (List.length (map fst es ++ [i])) i (w_state w')).
Proof.
  intros p es seen l c0 w i w' c V WP CW J EL MI DL WU. destruct (inputs_snoc _ _ _ _ _ _ EL MI) as (MI' & TG & MO & _). pose proof MO as (PI & (FT & BT) & _).
  destruct (fi_last _ _ _ _ J) as [_ (_ & (FT0 & BT0) & _)].
  assert (STEP : wp_enabled (p_wobble p) = true -> forall g, @smoothing_within acosf p g (map fst es ++ [i]) ->
     winv g (B2R (wp_timeout (p_wobble p) : float64)) (List.length (map fst es ++ [i])) i (w_state w') /\ vec_le (bpow radix2 30) c).
  { intros ON g W. destruct (wobble_valid p V ON) as (V1 & V2 & V3 & V4). pose proof (fi_w _ _ _ _ J ON g (within_prefix _ _ _ _ W)) as WI.
    rewrite CW in WI. rewrite app_length. cbn [List.length]. rewrite Nat.add_1_r.
    assert (WL : wlimits g (B2R (wp_timeout (p_wobble p) : float64)) (S (List.length (map fst es)))) by (eapply within_limits; [exact W|]; rewrite app_length; cbn [List.length]; unfold A; lia).
    pose proof W as (_ & _ & W3 & W4 & _). apply Forall_app in W3. destruct W3 as [_ W3]. apply Forall_inv in W3.
    rewrite EL in W4. apply sorted_init in W4. destruct W4 as [_ W4].
    assert (OR : B2R (i_time (li_input (co_last c0)) : float64) <= B2R (i_time i : float64)).
    { unfold A in DL. cbn [dltb ieee] in DL. apply (ltb_false_R 53 1024) in DL; [exact DL|assumption|assumption]. }
    unfold A in *. rewrite <- WP in ON, V1, V2, V3, V4, WI, WL |- *.
    refine (smooth_step g _ _ w (li_input (co_last c0)) i w' c WI WL ON V1 eq_refl V2 V3 V4 W3 FT BT _ TG WU). split; [exact OR|].
    apply Rplus_le_reg_l with (- B2R (i_time (li_input (co_last c0)) : float64)). unfold A in *. lra. }
  split; [|intros ON g W; apply STEP; assumption].
  destruct (wp_enabled (p_wobble p)) eqn:ON.
  - destruct MI as (_ & _ & _ & SM). destruct (SM ON) as (_ & g & W). apply (STEP eq_refl g W).
  - apply wobble_off in WU; [|unfold A in *; rewrite WP; exact ON]. subst c. exact PI.
Qed.

Lemma stylus_step : forall (p : StrokeModelParams) m (seen : list Input) (i : Input) c sm, validate_params p = OkStatus -> sm_params (m_stylus m) = p_stylus p ->
  Forall plain (s_raw (sm_state (m_stylus m))) -> (exists l j, seen = l ++ [j] /\ latest acosf (i_time j) (s_raw (sm_state (m_stylus m)))) ->
  vec_le (bpow radix2 30) c -> @moderate_input acosf i -> (forall l j, seen = l ++ [j] -> spaced (i_time j) (i_time i)) ->
  stylus_update (m_stylus m) c (i_time i) (i_pressure i) (i_tilt i) (i_orient i) = Ret sm ->
  Forall plain (s_raw (sm_state sm)) /\ latest acosf (i_time i) (s_raw (sm_state sm)).
Proof.
  intros p m seen i c sm V C3 F (l & j & E & L) P (_ & _ & M1 & M2 & M3) AP SU.
  assert (VS : validate_stylus (sm_params (m_stylus m)) = OkStatus) by (rewrite C3; apply (validate_params_parts p V)).
  exact (stylus_plain _ _ _ _ _ _ _ _ VS F P M1 M2 M3 L (or_intror (AP l j E)) SU).
Qed.
Lemma coordinate_30 : forall x : float32, fin_le (bpow radix2 30) x -> is_finite (b32_to_b64 x) = true /\ Rabs (B2R (b32_to_b64 x)) <= P30.
Proof. intros x [F L]. destruct (f2d_fin _ F) as [G K]. split; [exact G|]. rewrite K. exact L. Qed.
Lemma upd_pred_le : forall o c (t : float64) o', vec_le (bpow radix2 30) c -> pred_le o -> upd_pred o c t = Ret o' -> pred_le o'.
Proof.
  intros [[pp sp l|k]|] c t o' P K H; cbn [upd_pred pred_update obind] in H.
  - apply ret_inj in H. subst o'. exact P.
  - bind_inv H. apply ret_inj in H. subst o'. bind_inv E. apply ret_inj in E. subst x. rename x0 into k'.
    cbn [pred_le] in K |- *. unfold kpred_update in E0. bind_inv E0. bind_inv E0. apply ret_inj in E0. subst k'. intros cert CE. cbn [k_params k_x k_y] in CE |- *.
    destruct (K cert CE) as [K1 K2]. destruct P as [PX PY]. destruct (coordinate_30 _ PX) as [X1 X2]. destruct (coordinate_30 _ PY) as [Y1 Y2].
    split; [exact (filter_update_small acosf _ _ cert _ _ _ CE K1 X1 X2 E)|exact (filter_update_small acosf _ _ cert _ _ _ CE K2 Y1 Y2 E1)].
  - apply ret_inj in H. subst o'. exact I.
Qed.
Lemma reset_pred_le : forall o, pred_le (option_map pred_reset o).
Proof. intros [[pp sp l|k]|]; [exact I| |exact I]. intros cert CE. split; apply filter_reset_small. Qed.

(** The segment from the last input to a new one. *)
Lemma segment : forall (p : StrokeModelParams) tip0 (a b : Input) ca cb n k tip tips, validate_params p = OkStatus -> @steady_params acosf p -> @moderate_input acosf a -> @moderate_input acosf b ->
  dltb (i_time b) (i_time a) = false -> @tick_gap acosf a b -> number_of_steps tip0 a b (p_sampling p) (p_position p) = Ret (IOk n) ->
  vec_le (bpow radix2 30) ca -> vec_le (bpow radix2 30) cb ->
  lively (unit_of (p_position p)) k tip0 -> is_finite (t_time tip0 : float64) = true -> B2R (t_time tip0 : float64) = B2R (i_time a : float64) ->
  update_along_path (p_position p) tip0 ca (i_time a) cb (i_time b) n = Ret (tip, tips) -> (k + List.length tips <= many)%nat ->
  lively (unit_of (p_position p)) (k + List.length tips) tip /\ is_finite (t_time tip : float64) = true /\ B2R (t_time tip : float64) = B2R (i_time b : float64) /\
  Forall (tame_tip (p_position p)) tips.
Proof.
  intros p tip0 a b ca cb n k tip tips V SP MA MB DL TG NS VA VB LV FT ET UA KM.
  destruct (steps_span p tip0 a b n V SP MA MB DL TG NS) as [SN NZ]. destruct SP as (SD & _).
  destruct (along_lively _ _ _ _ _ _ _ _ _ _ _ SD SN VA VB LV FT ET UA KM) as [K1 K2]. split; [exact K1|].
  destruct SN as [[F0 F1] [B0 B1] OR GP _ _ _]. destruct (path_timed acosf _ _ _ _ _ _ _ _ _ UA F0 F1 OR GP) as ((P1 & P2 & P3) & P4 & P5).
  assert (TM : Forall (fun t : TipState => within (bpow radix2 32) (t_time t)) tips).
  { apply Forall_forall. intros t IN. split; [exact (proj1 (Forall_forall _ _) P1 _ (in_map t_time _ _ IN))|].
    pose proof (proj1 (Forall_forall _ _) P3 _ (in_map B2R _ _ (in_map t_time _ _ IN))) as Q. cbv beta in Q. unfold A in *.
    apply Rabs_le_inv in B0, B1. assert (Rabs (B2R (t_time t : float64)) <= 2147483648) by (apply Rabs_le; lra).
    change (bpow radix2 32) with 4294967296. lra. }
  assert (TT : is_finite (t_time tip : float64) = true /\ B2R (t_time tip : float64) = B2R (i_time b : float64)).
  { destruct tips as [|t0 tl] eqn:TE.
    - rewrite P4. cbn [last]. split; [exact FT|]. rewrite ET. apply NZ. apply update_along_path_length in UA. cbn [List.length] in UA. lia.
    - rewrite <- TE in *. assert (NE : tips <> []) by (rewrite TE; discriminate). rewrite P4. split; [|exact (P5 NE)].
      assert (IN : In (last tips tip0) tips) by (destruct (exists_last NE) as (x & y & E); rewrite E, last_last; apply in_or_app; right; left; reflexivity).
      exact (proj1 (proj1 (Forall_forall _ _) TM _ IN)). }
  split; [apply TT|]. split; [apply TT|]. apply Forall_forall. intros t IN. split; [|exact (proj1 (Forall_forall _ _) TM _ IN)].
  eapply lively_le; [exact (proj1 (Forall_forall _ _) K2 _ IN)|exact KM].
Qed.

Lemma down_finite : forall i : Input, @moderate_input acosf i -> finite_result (down_result i).
Proof.
  intros i (P & [T _] & M1 & M2 & M3). split; [|exact T]. split; [exact (vec_le_pow 30 112 (i_pos i) ltac:(lia) P)|]. split; [apply vzero_le|]. split; [apply vzero_le|].
  split; [exact (fin_le_pow 100 104 _ ltac:(lia) M1)|]. split; [exact (fin_le_pow 100 104 _ ltac:(lia) M2)|exact (fin_le_pow 100 104 _ ltac:(lia) M3)].
Qed.
Lemma start_lively : forall sg (i : Input) k, @moderate_input acosf i -> lively sg k (mkTip (i_pos i) vzero vzero (i_time i)).
Proof.
  intros sg i k ([[F1 L1] [F2 L2]] & _). split; [|apply (vec_le_mono (bpow radix2 0)); [apply vzero_le|apply (IZR_le 1); lia]].
  assert (B : bpow radix2 30 <= 4294967296) by (change (bpow radix2 30) with 1073741824; lra).
  exists (B2R (vx (i_pos i) : float32)), (B2R (vy (i_pos i) : float32)). split; [exact (Rle_trans _ _ _ L1 B)|]. split; [exact (Rle_trans _ _ _ L2 B)|].
  pose proof (grow_1 k) as G. assert (G2 : 1 <= grow k * grow k) by (rewrite <- (Rmult_1_r 1); apply Rmult_le_compat; lra).
  assert (Q : forall x, (x - x) * (x - x) + sg * 0 * (sg * 0) <= grow k * grow k) by (intros x; ring_simplify ((x - x) * (x - x) + sg * 0 * (sg * 0)); lra).
  split; (split; [assumption|split; [reflexivity|apply Q]]).
Qed.

Definition accepting (p : StrokeModelParams) (es : list entry) (seen : list Input) (c : core) : Prop :=
  (exists l, map fst es = l ++ [li_input (co_last c)]) /\ (List.length (map fst es) <= List.length seen)%nat /\ (quiet p es seen -> finv p es seen c).
Lemma bufsize : (Z.to_nat 1048576 <= many)%nat /\ (many <= Z.to_nat 2000000)%nat.
Proof. unfold many. split; apply Z2Nat.inj_le; lia. Qed.

Lemma finv_state : forall fuel hist s es seen, after_seen fuel hist s es seen ->
  exists m rs, run fuel modeler0 hist = Ret (m, rs) /\ tracks s m /\ good m /\ cons m /\
    (forall p last, m_params m = Some p -> m_last m = Some last -> accepting p es seen (core_of p m last)).
Proof.
  intros fuel hist s es seen AS.
  refine (after_seen_state fuel (fun _ => True) accepting _ _ _ hist s es seen AS (call_in_true _)).
  - intros p m i m' out _ MP V G U EV. 
    destruct (upd_down fuel m i m' out U EV) as (p' & sm & pred & MQ & _ & _ & SU & UP & -> & ->). assert (p' = p) by congruence. subst p'. clear MQ.
    split; [exists []; reflexivity|]. split; [apply le_n|]. intros (O & (F & _) & _). apply Forall_inv in F.
    assert (VS : validate_stylus (sm_params (stylus_reset (m_stylus m) (p_stylus p))) = OkStatus) by apply (validate_params_parts p V).
    pose proof F as (P & [FT BT] & M1 & M2 & M3).
    destruct (stylus_plain (stylus_reset (m_stylus m) (p_stylus p)) _ _ _ _ _ _ (i_time i) VS ltac:(constructor) P M1 M2 M3 ltac:(discriminate) (or_introl eq_refl) SU) as [K1 K2].
    constructor; cbn [core_of co_w co_tip co_s co_l co_pred co_last m_wobble m_pos m_stylus m_loop m_predictor li_corrected li_input loop_reset l_samples pos_reset pm_state t_pos t_vel t_acc t_time].
    + split; [apply start_lively; exact F|]. split; [exact FT|reflexivity].
    + exact K1.
    + exists [], i. split; [reflexivity|exact K2].
    + split; [constructor|apply Nat.le_0_l].
    + destruct (prediction_on p); [|exact I]. eapply upd_pred_le; [exact P|apply reset_pred_le|exact UP].
    + split; [exact P|exact F].
    + exists []. reflexivity.
    + constructor; [|constructor]. constructor; [|constructor]. apply down_finite. exact F.
    + intros ON g W. cbn [map fst List.length] in *. pose proof (within_limits _ _ _ 1 W eq_refl) as WL. destruct W as (_ & _ & W & _). apply Forall_inv in W.
      exact (start_winv g _ i WL FT W).
  - intros p m i m' out es0 seen0 lst last' _ MP V G CP ML [(l & JL) [JN J]] U EV ML'. cbn [core_of co_last] in JL.
    destruct (upd_move fuel m i m' out U EV) as (p' & last0 & w & c & sm & n & tip & tips & pred & lm & MQ & _ & ML0 & DL & WU & SU & NS & UA & UP & MS & ->).
    assert (p' = p) by congruence. subst p'. clear MQ. assert (last0 = lst) by congruence. subst last0. cbn in ML'. apply some_inj in ML'. subst last'.
    assert (IN : exists l, map fst (es0 ++ [(i, out)]) = l ++ [i]) by (exists (map fst es0); rewrite map_app; reflexivity).
    split; [exact IN|]. split; [rewrite map_app, !app_length; apply Nat.add_le_mono_r; exact JN|]. intros (O & MI & CT).
    rewrite map_app in MI. cbn [map fst] in MI. destruct (inputs_snoc _ _ _ _ _ _ JL MI) as (MI' & TG & MO & AP). rewrite count_snoc in CT.
    pose proof (model_stylus_length _ _ _ _ _ _ _ _ MS) as LN.
    destruct CP as (C1 & C2 & C3 & C4). assert (JQ : finv p es0 seen0 (core_of p m lst)) by (apply J; split; [exact O|]; split; [exact MI'|lia]).
    destruct (smooth_move p es0 seen0 l (core_of p m lst) (m_wobble m) i w c V C1 eq_refl JQ JL MI DL WU) as [PI WI].
    destruct JQ as [(J1 & J1' & J1'') J2 J3 [J4 J4'] J6 [J7 J7'] J8 J9 _].
    pose proof O as (SD & OM & _). cbn [core_of co_w co_tip co_s co_l co_pred co_last] in *.
    destruct (stylus_step p m seen0 i _ sm V C3 J2 J3 PI MO AP SU) as (S1 & S2). pose proof bufsize as [BZ BZ']. unfold A in *.
    rewrite C2 in UA. destruct (segment p _ _ _ _ _ n _ _ _ V O J7' MO DL TG NS J7 PI J1 J1' J1'' UA) as (T1 & T2 & T3 & T4); [lia|].
    assert (CN : (Z.of_nat (List.length (l_samples (m_loop m)) + List.length tips) < 2 ^ 24)%Z) by (unfold A; lia).
    assert (GB : lp_enabled (l_params (m_loop m)) = true -> good_bounds (l_params (m_loop m))) by (unfold A in *; rewrite C4; apply good_ok; assumption).
    destruct (stylus_finite fuel _ _ sm tips (m_loop m) (i_time i) lm out SD S1 T4 J4 CN GB MS) as (R1 & R2 & R3).
    constructor; cbn [core_of co_w co_tip co_s co_l co_pred co_last m_wobble m_pos m_stylus m_loop m_predictor li_corrected li_input pos_with_state pm_state]; rewrite ?count_snoc; auto.
    + unfold A in *. rewrite LN. auto.
    + exists seen0, i. split; [reflexivity|exact S2].
    + split; [exact R2|]. unfold A in *. rewrite LN. lia.
    + destruct (prediction_on p); [|exact I]. eapply upd_pred_le; [exact PI|exact J6|exact UP].
    + apply Forall_app. split; [exact J9|]. constructor; [exact R1|constructor].
    + rewrite map_app. exact WI.
  - intros p m i m' out es0 seen0 lst e _ MP V G CP ML [JL [JN J]] U NE. split; [exact JL|].
    split; [destruct (traced i e); [rewrite app_length; apply Nat.le_trans with (1 := JN); apply Nat.le_add_r|exact JN]|]. intros RF. inversion U; subst; try congruence.
    + rewrite H0 in RF |- *. auto.
    + match goal with HN : number_of_steps _ _ _ _ _ = _ |- _ => rewrite (number_of_steps_traced _ _ _ _ _ _ i H1 HN) in RF |- * end.
      destruct RF as (O & MI & CT). apply seen_snoc in MI; [|exact JN]. destruct MI as (OW & MI & MO & AP). destruct J as [J1 J2 J3 J4 J6 J7 J8 J9 _]; [split; auto|].
      destruct CP as (C1 & C2 & C3 & C4). cbn [core_of co_w co_tip co_s co_l co_pred co_last] in *. pose proof MO as (PI & _).
      match goal with HW : wobble_update _ _ _ = _ |- _ => apply wobble_off in HW; [|unfold A in *; rewrite C1; exact OW]; subst c end.
      match goal with HS : stylus_update _ _ _ _ _ _ = _ |- _ => destruct (stylus_step p m seen0 i _ sm V C3 J2 J3 PI MO AP HS) as (S1 & S2) end.
      constructor; cbn [core_of co_w co_tip co_s co_l co_pred co_last m_wobble m_pos m_stylus m_loop m_predictor] in *; auto.
      * exists seen0, i. split; [reflexivity|exact S2].
      * intros ON. unfold A in *. rewrite OW in ON. discriminate ON.
Qed.

Lemma finite_all : forall r, finite_result r -> @all_finite acosf r.
Proof.
  intros r (([P1 P2] & [V1 V2] & [C1 C2] & Q1 & Q2 & Q3) & T). unfold all_finite.
  repeat split; first [apply P1|apply P2|apply V1|apply V2|apply C1|apply C2|exact T|apply Q1|apply Q2|apply Q3].
Qed.
Lemma room : forall k i, (k <= Z.to_nat 1048576)%nat -> (0 <= i <= 1000)%Z -> (k + Z.to_nat i <= many)%nat.
Proof.
  intros k i K I. apply Nat2Z.inj_le. unfold many. rewrite Nat2Z.inj_add, !Z2Nat.id by lia. apply Nat2Z.inj_le in K. rewrite Z2Nat.id in K by lia. lia.
Qed.
(** The end of the stroke, from a tip that follows it. *)
Lemma ending : forall (p : StrokeModelParams) (tip1 : TipState) anchor k tip2 tips2, validate_params p = OkStatus -> @steady_params acosf p -> vec_le (bpow radix2 30) anchor ->
  lively (unit_of (p_position p)) k tip1 -> (k <= Z.to_nat 1048576)%nat -> is_finite (t_time tip1 : float64) = true -> Rabs (B2R (t_time tip1 : float64)) <= 2147483648 ->
  model_end_of_stroke (p_position p) tip1 anchor (ddiv (dofZ 1) (sp_rate (p_sampling p))) (Z.to_nat (sp_max_iter (p_sampling p))) (sp_stop (p_sampling p)) = (tip2, tips2) ->
  tame_tip (p_position p) tip2 /\ Forall (tame_tip (p_position p)) tips2.
Proof.
  intros p tip1 anchor k tip2 tips2 V (SD & _) VA LV KM FT BT ME. destruct (valid_counts p V) as [VC _].
  pose proof (sd_rate _ _ SD) as RT.
  assert (FR : is_finite (sp_rate (p_sampling p) : float64) = true).
  { destruct (validate_params_parts p V) as (_ & _ & VS & _). unfold validate_sampling in VS. apply and_then_ok in VS. destruct VS as [VR _]. apply gt0_d_F in VR. apply VR. }
  destruct (period_le (sp_rate (p_sampling p) : float64) FR RT) as [D1 D2].
  assert (K2 : (k + Z.to_nat (sp_max_iter (p_sampling p)) <= many)%nat) by (apply room; [exact KM|split; [apply Z.le_trans with 1%Z; [discriminate|apply VC]|apply VC]]).
  assert (K3 : INR (Z.to_nat (sp_max_iter (p_sampling p))) <= 1000).
  { rewrite INR_IZR_INZ. apply IZR_le. rewrite Z2Nat.id; [apply VC|]. apply Z.le_trans with 1%Z; [discriminate|apply VC]. }
  destruct (end_lively (p_position p) _ anchor (sp_stop (p_sampling p)) SD VA (Z.to_nat (sp_max_iter (p_sampling p))) tip1 _ k tip2 tips2 K2 LV FT ltac:(lra) D1 D2 ME) as (E1 & E2 & E3 & E4).
  split; [split; [eapply lively_le; [exact E1|exact K2]|exact E3]|]. apply Forall_forall. intros t IN.
  split; [eapply lively_le; [exact (proj1 (Forall_forall _ _) E2 t IN)|exact K2]|exact (proj1 (Forall_forall _ _) E4 t IN)].
Qed.

(** What the next Update or prediction returns. *)
Lemma update_finite : forall fuel hist s p es seen i rs out,
  after_seen fuel hist s es seen -> ps_params s = Some p -> @steady_params acosf p -> @moderate_input acosf i ->
  (in_stroke s = true -> @moderate_inputs acosf p (map fst es ++ [i]) (seen ++ [i]) /\ (count es + List.length out <= Z.to_nat 1048576)%nat) ->
  answers fuel hist [CUpdate i rs] = Ret [RResults OkStatus (rs ++ out)] -> Forall finite_result out.
Proof.
  intros fuel hist s p es seen i rs out AS PP O MO F AN.
  assert (AF : after fuel hist s) by (destruct AS as (ma & rsa & Ra & Pa & _); exists ma, rsa; auto).
  destruct (finv_state fuel hist s es seen AS) as (m0 & rs0 & R0 & (T1 & T2 & _) & G & C & J).
  destruct (accepted_update _ _ _ _ _ _ _ AF AN) as (m & r0 & m' & out' & R & _ & _ & _ & EQ & U & _).
  unfold A in *. rewrite R0 in R. injection R as <- <-. apply app_inv_head in EQ. subst out'. rewrite T1 in PP.
  pose proof (g_valid _ G p PP) as V. pose proof (C p PP) as CP0. pose proof O as (SD & _). pose proof bufsize as [BZ BZ']. pose proof MO as (PI & _).
  assert (LIVE : forall lst, m_last m0 = Some lst -> @moderate_inputs acosf p (map fst es ++ [i]) (seen ++ [i]) /\ (count es + List.length out <= Z.to_nat 1048576)%nat).
  { intros lst ML. apply F. unfold in_stroke. rewrite T2, ML. reflexivity. }
  destruct (i_event i) eqn:EV.
  - destruct (upd_down fuel m0 i m' out U EV) as (p' & sm & pred & MP & _ & _ & _ & _ & -> & _).
    constructor; [|constructor]. apply down_finite. exact MO.
  - destruct (upd_move fuel m0 i m' out U EV) as (p' & lst & w & c & sm & n & tip & tips & pred & lm & MP & _ & ML & DL & WU & SU & NS & UA & UP & MS & _).
    assert (p' = p) by congruence. subst p'. destruct (LIVE lst ML) as [MI CT].
    destruct (CP0 ltac:(left; congruence)) as (C1 & C2 & C3 & C4). destruct (J p lst MP ML) as [(l & JL) [_ JQ']]. cbn [core_of co_last] in JL.
    destruct (inputs_snoc _ _ _ _ _ _ JL MI) as (MI' & TG & _ & AP).
    assert (JQ : finv p es seen (core_of p m0 lst)) by (apply JQ'; split; [exact O|]; split; [exact MI'|lia]).
    destruct (smooth_move p es seen l (core_of p m0 lst) (m_wobble m0) i w c V C1 eq_refl JQ JL MI DL WU) as [PC _].
    destruct JQ as [(J1 & J1' & J1'') J2 J3 [J4 J4'] J6 [J7 J7'] J8 J9 _]. cbn [core_of co_w co_tip co_s co_l co_pred co_last] in *.
    pose proof (model_stylus_length _ _ _ _ _ _ _ _ MS) as LN.
    destruct (stylus_step p m0 seen i _ sm V C3 J2 J3 PC MO AP SU) as (S1 & S2).
    rewrite C2 in UA. destruct (segment p _ _ _ _ _ n _ _ _ V O J7' MO DL TG NS J7 PC J1 J1' J1'' UA) as (K1 & K2 & K3 & K4); [unfold A in *; lia|].
    apply (stylus_finite fuel _ _ sm tips (m_loop m0) (i_time i) lm out SD S1 K4 J4); [unfold A in *; lia|unfold A in *; rewrite C4; apply good_ok; assumption|exact MS].
  - destruct (upd_up fuel m0 i m' out U EV) as (p' & lst & n & tip1 & tips1 & tip2 & tips2 & sm & lm & MP & _ & ML & DL & NS & UA & ME & SU & MS & _).
    assert (p' = p) by congruence. subst p'. destruct (LIVE lst ML) as [MI CT].
    destruct (CP0 ltac:(left; congruence)) as (C1 & C2 & C3 & C4). destruct (J p lst MP ML) as [(l & JL) [_ JQ']]. cbn [core_of co_last] in JL.
    destruct (inputs_snoc _ _ _ _ _ _ JL MI) as (MI' & TG & _ & AP).
    assert (JQ : finv p es seen (core_of p m0 lst)) by (apply JQ'; split; [exact O|]; split; [exact MI'|lia]).
    destruct JQ as [(J1 & J1' & J1'') J2 J3 [J4 J4'] J6 [J7 J7'] J8 J9 _]. cbn [core_of co_w co_tip co_s co_l co_pred co_last] in *.
    pose proof (model_stylus_length _ _ _ _ _ _ _ _ MS) as LN.
    destruct (stylus_step p m0 seen i _ sm V C3 J2 J3 PI MO AP SU) as (S1 & S2). rewrite C2 in UA, ME.
    assert (LT : (List.length tips1 <= List.length out)%nat).
    { rewrite LN. destruct (tips1 ++ tips2) eqn:E; [apply app_eq_nil in E; destruct E as [-> _]; cbn; lia|]. rewrite <- E, app_length. lia. }
    destruct (segment p _ _ _ _ _ n _ _ _ V O J7' MO DL TG NS J7 PI J1 J1' J1'' UA) as (K1 & K2 & K3 & K4); [unfold A in *; lia|].
    destruct (ending p tip1 (i_pos i) _ tip2 tips2 V O PI K1) as [K5 K6]; [unfold A in *; lia|exact K2|unfold A in *; rewrite K3; apply MO|exact ME|].
    apply (stylus_finite fuel _ _ sm _ (m_loop m0) (i_time (li_input lst)) lm out SD S1) in MS; [exact (proj1 MS)| |exact J4|unfold A in *; lia|unfold A in *; rewrite C4; apply good_ok; assumption].
    assert (K7 : Forall (tame_tip (p_position p)) (tips1 ++ tips2)) by (apply Forall_app; split; assumption).
    destruct (tips1 ++ tips2); [constructor; [exact K5|constructor]|exact K7].
  - destruct (upd_other fuel m0 i m' out z U EV).
Qed.
Lemma predict_finite : forall fuel hist s p es seen rs out,
  after_seen fuel hist s es seen -> ps_params s = Some p -> p_prediction p = PredStrokeEnd -> @steady_params acosf p ->
  @moderate_inputs acosf p (map fst es) seen -> (count es <= Z.to_nat 1048576)%nat ->
  answers fuel hist [CPredict rs] = Ret [RResults OkStatus out] -> Forall finite_result out.
Proof.
  intros fuel hist s p es seen rs out AS P PS O MI CT AN.
  assert (AF : after fuel hist s) by (destruct AS as (ma & rsa & Ra & Pa & _); exists ma, rsa; auto).
  destruct (finv_state fuel hist s es seen AS) as (m & rs0 & R0 & (T1 & T2 & _) & G & C & J).
  destruct (remembered_state _ _ _ _ _ AS) as (m1 & rs1 & R1 & _ & _ & _ & RM). unfold A in *. rewrite R0 in R1. injection R1 as <- <-.
  destruct (accepted_predict _ _ _ _ _ _ AF AN) as (m1 & r0 & m' & R & _ & _ & _ & U). rewrite R0 in R. injection R as <- <-.
  destruct (prd_ok fuel m m' out U) as (p' & pr & last0 & tips & lm & MQ & MPR & ML & PC & MS & _). rewrite T1 in P.
  assert (p' = p) by congruence. subst p'. pose proof (g_valid _ G p P) as V. destruct (J p last0 MQ ML) as [(l & JL) [_ JQ]].
  destruct (RM p last0 MQ ML) as (cs & ws & [H1 H2 H3 H4 H5 H6]). pose proof O as (SD & _).
  assert (ON : prediction_on p = true) by (unfold prediction_on; rewrite PS; reflexivity). specialize (H6 ON).
  destruct JQ as [(J1 & J1' & J1'') J2 J3 [J4 J4'] J6 [J7 J7'] J8 J9 _]; [split; auto|].
  destruct (C p MQ ltac:(left; congruence)) as (C1 & C2 & C3 & C4).
  cbn [core_of co_w co_s co_last co_l co_pred co_tip] in *. rewrite ON, MPR in *.
  destruct (predicting_end_F _ _ _ _ PS H6) as (o & EO). apply some_inj in EO. subst pr.
  assert (TI : Forall (tame_tip (p_position p)) tips /\ (List.length tips <= 1000)%nat).
  { cbn [pred_construct] in PC. destruct o as [pos|]; apply ret_inj in PC; subst tips; [|split; [constructor|cbn; lia]].
    destruct (model_end_of_stroke _ _ _ _ _ _) as [t ts] eqn:ME. cbn [snd]. cbn [pred_le] in J6.
    split; [eapply ending; [exact V|exact O|exact J6|exact J1|exact CT|exact J1'|unfold A in *; rewrite J1''; apply J7'|exact ME]|].
    destruct (valid_counts p V) as [VC _]. apply end_of_stroke_length in ME. unfold A in *. lia. }
  destruct TI as [TI TL]. pose proof bufsize as [BZ BZ'].
  apply (stylus_finite fuel _ _ _ _ _ _ _ _ SD J2 TI J4) in MS; [exact (proj1 MS)|unfold A in *; lia|unfold A in *; rewrite C4; apply good_ok; assumption].
Qed.
End Finite.

(** ** C49 *)
(** Every result of a stroke of at most 2^20 results is finite in all its fields. *)
Theorem C49_float_finite_results : forall acosf (A := ieee acosf) fuel hist s (p : StrokeModelParams (A := ieee acosf)) es (seen : list (Input (A := ieee acosf))),
  after_seen fuel hist s es seen -> in_stroke s = true -> ps_params s = Some p -> steady_params p -> moderate_inputs p (map fst es) seen ->
  (List.length (List.concat (map snd es)) <= Z.to_nat 1048576)%nat ->
  Forall all_finite (List.concat (map snd es)).
Proof.
  intros acosf A fuel hist s p es seen AS IS PP O MI CT. subst A.
  destruct (finv_state acosf fuel hist s es seen AS) as (m & rs & R & (T1 & T2 & _) & G & C & J).
  unfold in_stroke in IS. rewrite T2 in IS. destruct (m_last m) as [last|] eqn:ML; [|discriminate IS].
  rewrite T1 in PP. destruct (J p last PP eq_refl) as [_ [_ JQ]]. destruct JQ as [_ _ _ _ _ _ _ J9 _]; [split; [exact O|split; [exact MI|exact CT]]|].
  clear - J9. induction J9 as [|e es H J9 IH]; [constructor|]. cbn [map List.concat]. apply Forall_app. split; [|exact IH].
  eapply Forall_impl; [|exact H]. intros r. apply finite_all.
Qed.

(** So are the results of the next Update, Down, Move or Up. *)
Theorem C49_float_finite_update : forall acosf (A := ieee acosf) fuel hist s (p : StrokeModelParams (A := ieee acosf)) es (seen : list (Input (A := ieee acosf))) (i : Input (A := ieee acosf)) rs out,
  after_seen fuel hist s es seen -> ps_params s = Some p -> steady_params p -> moderate_input i ->
  (in_stroke s = true -> moderate_inputs p (map fst es ++ [i]) (seen ++ [i]) /\
     (List.length (List.concat (map snd es)) + List.length out <= Z.to_nat 1048576)%nat) ->
  answers fuel hist [CUpdate i rs] = Ret [RResults OkStatus (rs ++ out)] -> Forall all_finite out.
Proof.
  intros acosf A fuel hist s p es seen i rs out AS PP O MO F AN. subst A.
  eapply Forall_impl; [|exact (update_finite acosf fuel hist s p es seen i rs out AS PP O MO F AN)]. intros r. apply finite_all.
Qed.

(** And a prediction to the end of the stroke. *)
Theorem C49_float_finite_prediction : forall acosf (A := ieee acosf) fuel hist s (p : StrokeModelParams (A := ieee acosf)) es (seen : list (Input (A := ieee acosf))) rs out,
  after_seen fuel hist s es seen -> ps_params s = Some p -> p_prediction p = PredStrokeEnd -> steady_params p -> moderate_inputs p (map fst es) seen ->
  (List.length (List.concat (map snd es)) <= Z.to_nat 1048576)%nat ->
  answers fuel hist [CPredict rs] = Ret [RResults OkStatus out] -> Forall all_finite out.
Proof.
  intros acosf A fuel hist s p es seen rs out AS PP PS O MI CT AN. subst A.
  eapply Forall_impl; [|exact (predict_finite acosf fuel hist s p es seen rs out AS PP PS O MI CT AN)]. intros r. apply finite_all.
Qed.

(** ** C27 and C28, whether mitigation is on or off *)
Theorem C27_ordinary_pressure_in_range_update : forall acosf (A := ieee acosf) fuel h0 (d : Input (A := ieee acosf)) rs0 out0 mid s (p : StrokeModelParams (A := ieee acosf)) es (seen : list (Input (A := ieee acosf))) (i : Input (A := ieee acosf)) rs out,
  i_event d = EDown -> unit_pressure acosf d ->
  answers fuel h0 [CUpdate d rs0] = Ret [RResults OkStatus out0] ->
  Forall (call_ok (unit_pressure acosf)) mid -> unit_pressure acosf i -> i_event i <> EDown ->
  after_seen fuel (h0 ++ CUpdate d rs0 :: mid) s es seen -> ps_params s = Some p -> steady_params p -> moderate_input i ->
  (in_stroke s = true -> moderate_inputs p (map fst es ++ [i]) (seen ++ [i]) /\
     (List.length (List.concat (map snd es)) + List.length out <= Z.to_nat 1048576)%nat) ->
  answers fuel (h0 ++ CUpdate d rs0 :: mid) [CUpdate i rs] = Ret [RResults OkStatus (rs ++ out)] ->
  Forall pressure_in_unit out.
Proof.
  intros acosf A fuel h0 d rs0 out0 mid s p es seen i rs out ED UD AD FM UI ND AS PP O MO F AN. subst A.
  pose proof (C49_float_finite_update acosf fuel _ s p es seen i rs out AS PP O MO F AN) as FF.
  pose proof (C27_pressure_in_range_update_partial acosf fuel h0 d rs0 out0 mid i rs out ED UD AD FM UI ND AN) as PF.
  apply Forall_forall. intros r IN. destruct (proj1 (Forall_forall _ _) PF r IN) as [K|K]; [exact K|].
  destruct (proj1 (Forall_forall _ _) FF r IN) as (_ & _ & _ & _ & K2 & _). cbn [fisnan ieee] in K.
  destruct (r_pressure r); try discriminate K2; discriminate K.
Qed.
Theorem C28_ordinary_orientation_in_range_update : forall acosf (A := ieee acosf) fuel hist s (p : StrokeModelParams (A := ieee acosf)) es (seen : list (Input (A := ieee acosf))) (i : Input (A := ieee acosf)) rs out,
  after_seen fuel hist s es seen -> ps_params s = Some p -> steady_params p -> moderate_input i -> i_event i <> EDown ->
  (in_stroke s = true -> moderate_inputs p (map fst es ++ [i]) (seen ++ [i]) /\
     (List.length (List.concat (map snd es)) + List.length out <= Z.to_nat 1048576)%nat) ->
  answers fuel hist [CUpdate i rs] = Ret [RResults OkStatus (rs ++ out)] ->
  Forall (fun r : @Result A => orientation_in_range acosf (r_orient r)) out.
Proof.
  intros acosf A fuel hist s p es seen i rs out AS PP O MO ND F AN. subst A.
  pose proof (C49_float_finite_update acosf fuel _ s p es seen i rs out AS PP O MO F AN) as FF.
  pose proof (C28_orientation_in_range_update_partial acosf fuel hist i rs out ND AN) as PF.
  apply Forall_forall. intros r IN. destruct (proj1 (Forall_forall _ _) PF r IN) as [K|K]; [exact K|].
  destruct (proj1 (Forall_forall _ _) FF r IN) as (_ & _ & _ & _ & _ & _ & K2). cbn [fisnan ieee] in K.
  destruct (r_orient r); try discriminate K2; discriminate K.
Qed.

(** ** A simple sufficient condition: clocks that tick in units of 2^-20 s *)
Definition ticking_input {acosf : float32 -> float32} (i : Input (A := ieee acosf)) : Prop :=
  moderate_input i /\ exists k, B2R (i_time i : float64) = IZR k / 1048576.
Definition call_input_ok {A : Arith} (P : Input -> Prop) (c : call) : Prop := match c with CUpdate i _ => P i | _ => True end.

Lemma ticking_gap : forall acosf (a b : Input (A := ieee acosf)), ticking_input a -> ticking_input b -> tick_gap a b.
Proof.
  intros acosf a b ((_ & (FA & BA) & _) & ka & KA) ((_ & (FB & BB) & _) & kb & KB). split.
  - set (d := (kb - ka)%Z).
    assert (E : F2R (Float radix2 d (-20)) = B2R (i_time b : float64) - B2R (i_time a : float64)).
    { refine (eq_trans _ (f_equal2 Rminus (eq_sym KB) (eq_sym KA))). unfold F2R. cbn [Fnum Fexp]. unfold d. rewrite minus_IZR. cbn [bpow]. cbn. field. }
    exists (binary_normalize 53 1024 prec_gt_0_64 prec_lt_emax_64 mode_NE d (-20) false).
    pose proof (binary_normalize_correct 53 1024 prec_gt_0_64 prec_lt_emax_64 mode_NE d (-20) false) as H.
    assert (RB : Rabs (F2R (Float radix2 d (-20))) <= 4294967296).
    { rewrite E. eapply Rle_trans; [apply Rabs_triang|]. rewrite Rabs_Ropp.
      apply Rle_trans with (2147483648 + 2147483648); [apply Rplus_le_compat; assumption|lra]. }
    assert (GF : generic_format radix2 (SpecFloat.fexp 53 1024) (F2R (Float radix2 d (-20)))).
    { apply generic_format_F2R. intros NZ. unfold cexp.
      assert (M : (mag radix2 (F2R (Float radix2 d (-20))) <= 33)%Z).
      { apply mag_le_bpow; [|apply Rle_lt_trans with (1 := RB); cbn; lra].
        apply F2R_neq_0. exact NZ. }
      unfold SpecFloat.fexp, SpecFloat.emin. lia. }
    cbn [round_mode] in H. rewrite round_generic in H; [|apply valid_rnd_N|exact GF].
    rewrite Rlt_bool_true in H.
    + destruct H as (H1 & H2 & _). split; [exact H2|]. rewrite H1. exact E.
    + apply Rle_lt_trans with (1 := RB). apply Rlt_le_trans with (bpow radix2 33); [cbn; lra|apply bpow_le; lia].
  - unfold tick_apart. destruct (Z.eq_dec ka kb) as [->|NE].
    + left. exact (eq_trans KA (eq_sym KB)).
    + right. assert (E : B2R (i_time b : float64) - B2R (i_time a : float64) = IZR (kb - ka) / 1048576).
      { refine (eq_trans (f_equal2 Rminus KB KA) _). rewrite minus_IZR. field. }
      rewrite E. unfold Rdiv. rewrite Rabs_mult, (Rabs_pos_eq (/ 1048576)) by lra. rewrite <- abs_IZR.
      assert (1 <= IZR (Z.abs (kb - ka))) by (apply IZR_le; lia). lra.
Qed.
Lemma ticking_sorted : forall acosf (l : list (Input (A := ieee acosf))), Forall ticking_input l -> Sorted tick_gap l.
Proof.
  intros acosf l F. induction F as [|a l H F IH]; [constructor|]. constructor; [exact IH|].
  destruct F as [|b l Hb F]; constructor. apply ticking_gap; assumption.
Qed.
Lemma ticking_inputs : forall acosf (p : StrokeModelParams (A := ieee acosf)) (acc seen : list (Input (A := ieee acosf))), Forall ticking_input acc -> Forall ticking_input seen ->
  smoothable p acc seen -> moderate_inputs p acc seen.
Proof.
  intros acosf p acc seen F1 F2 SM. split; [|split; [|split; [|exact SM]]].
  - eapply Forall_impl; [|exact F2]. intros i [H _]. exact H.
  - pose proof (ticking_sorted acosf seen F2) as S. clear - S. induction S as [|a l S IH H]; [constructor|]. constructor; [exact IH|].
    destruct H as [|b l [_ H]]; constructor. exact H.
  - apply ticking_sorted. exact F1.
Qed.

(** The inputs of the stroke are among those of the history. *)
Definition all_in {A : Arith} (P : Input -> Prop) (s : sinputs) : Prop :=
  (Forall P (map fst (si_cur s)) /\ Forall P (si_seen s)) /\
  (match si_saved s with Some l => Forall P (map fst l) | None => True end) /\ Forall P (si_saved_seen s).
Lemma all_in_step : forall {A : Arith} (P : Input -> Prop) s c r, call_input_ok P c -> all_in P s -> all_in P (sstep s c r).
Proof.
  intros A P s c r H K. pose proof K as ((K1 & K2) & K3 & K4). unfold sstep.
  destruct c as [q| |i rs|rs| |]; destruct r as [st|st rs'|];
    try (destruct st as [|e|e]); try exact K; try (repeat split; cbn; auto; fail).
  1: { cbn [call_input_ok] in H. destruct (i_event i); repeat split; cbn; rewrite ?map_app; repeat first [apply Forall_app; split|apply Forall_cons|apply Forall_nil]; try assumption. }
  1: { destruct (traced i _); [|exact K]. repeat split; cbn; try assumption. apply Forall_app; split; [exact K2|constructor; [exact H|constructor]]. }
  1: { destruct (traced i _); [|exact K]. repeat split; cbn; try assumption. apply Forall_app; split; [exact K2|constructor; [exact H|constructor]]. }
  all: destruct (si_saved s) as [l|] eqn:E; [|exact K]; repeat split; cbn; rewrite ?E; assumption.
Qed.
Lemma all_in_run : forall {A : Arith} (P : Input -> Prop) cs rs s, Forall (call_input_ok P) cs -> all_in P s -> all_in P (srun s cs rs).
Proof.
  intros A P cs. induction cs as [|c cs IH]; intros rs s F K; [exact K|]. destruct rs as [|r rs]; [exact K|].
  cbn [srun]. apply IH; [exact (Forall_inv_tail F)|]. apply all_in_step; [exact (Forall_inv F)|exact K].
Qed.
Lemma seen_in : forall {A : Arith} (P : Input -> Prop) fuel hist s es seen, after_seen fuel hist s es seen ->
  Forall (call_input_ok P) hist -> Forall P (map fst es) /\ Forall P seen.
Proof.
  intros A P fuel hist s es seen (m & rs & _ & _ & E1 & E2 & _) F.
  destruct (all_in_run P hist rs sinputs0 F) as [H _]; [repeat split; constructor|]. rewrite E1, E2 in H. exact H.
Qed.

Theorem C49_float_finite_ticking_update : forall acosf (A := ieee acosf) fuel hist s (p : StrokeModelParams (A := ieee acosf)) es seen (i : Input (A := ieee acosf)) rs out,
  Forall (call_input_ok ticking_input) hist -> ticking_input i ->
  after_seen fuel hist s es seen -> ps_params s = Some p -> steady_params p ->
  (in_stroke s = true -> smoothable p (map fst es ++ [i]) (seen ++ [i]) /\ (List.length (List.concat (map snd es)) + List.length out <= Z.to_nat 1048576)%nat) ->
  answers fuel hist [CUpdate i rs] = Ret [RResults OkStatus (rs ++ out)] -> Forall all_finite out.
Proof.
  intros acosf A fuel hist s p es seen i rs out FH TI AS PP O CT AN. subst A. destruct (seen_in _ fuel hist s es seen AS FH) as [F1 F2].
  refine (C49_float_finite_update acosf fuel hist s p es seen i rs out AS PP O (proj1 TI) _ AN). intros IS. destruct (CT IS) as [SM CT']. split; [|exact CT'].
  apply ticking_inputs; [apply Forall_app; split; [exact F1|constructor; [exact TI|constructor]]|apply Forall_app; split; [exact F2|constructor; [exact TI|constructor]]|exact SM].
Qed.
Theorem C49_float_finite_ticking_prediction : forall acosf (A := ieee acosf) fuel hist s (p : StrokeModelParams (A := ieee acosf)) es seen rs out,
  Forall (call_input_ok ticking_input) hist ->
  after_seen fuel hist s es seen -> ps_params s = Some p -> p_prediction p = PredStrokeEnd -> steady_params p -> smoothable p (map fst es) seen ->
  (List.length (List.concat (map snd es)) <= Z.to_nat 1048576)%nat ->
  answers fuel hist [CPredict rs] = Ret [RResults OkStatus out] -> Forall all_finite out.
Proof.
  intros acosf A fuel hist s p es seen rs out FH AS PP PS O SM CT AN. subst A. destruct (seen_in _ fuel hist s es seen AS FH) as [F1 F2].
  exact (C49_float_finite_prediction acosf fuel hist s p es seen rs out AS PP PS O (ticking_inputs acosf p _ _ F1 F2 SM) CT AN).
Qed.

(** The predictions to the end of the stroke. *)
Theorem C27_ordinary_pressure_in_range_predict : forall acosf (A := ieee acosf) fuel h0 (d : Input (A := ieee acosf)) rs0 out0 mid s (p : StrokeModelParams (A := ieee acosf)) es (seen : list (Input (A := ieee acosf))) rs out,
  i_event d = EDown -> unit_pressure acosf d ->
  answers fuel h0 [CUpdate d rs0] = Ret [RResults OkStatus out0] ->
  Forall (call_ok (unit_pressure acosf)) mid ->
  after_seen fuel (h0 ++ CUpdate d rs0 :: mid) s es seen -> ps_params s = Some p -> p_prediction p = PredStrokeEnd -> steady_params p ->
  moderate_inputs p (map fst es) seen -> (List.length (List.concat (map snd es)) <= Z.to_nat 1048576)%nat ->
  answers fuel (h0 ++ CUpdate d rs0 :: mid) [CPredict rs] = Ret [RResults OkStatus out] ->
  Forall pressure_in_unit out.
Proof.
  intros acosf A fuel h0 d rs0 out0 mid s p es seen rs out ED UD AD FM AS PP PE O MI CT AN. subst A.
  pose proof (C49_float_finite_prediction acosf fuel _ s p es seen rs out AS PP PE O MI CT AN) as FF.
  pose proof (C27_pressure_in_range_predict_partial acosf fuel h0 d rs0 out0 mid rs out ED UD AD FM AN) as PF.
  apply Forall_forall. intros r IN. destruct (proj1 (Forall_forall _ _) PF r IN) as [K|K]; [exact K|].
  destruct (proj1 (Forall_forall _ _) FF r IN) as (_ & _ & _ & _ & K2 & _). cbn [fisnan ieee] in K.
  destruct (r_pressure r); try discriminate K2; discriminate K.
Qed.
Theorem C28_ordinary_orientation_in_range_predict : forall acosf (A := ieee acosf) fuel hist s (p : StrokeModelParams (A := ieee acosf)) es (seen : list (Input (A := ieee acosf))) rs out,
  after_seen fuel hist s es seen -> ps_params s = Some p -> p_prediction p = PredStrokeEnd -> steady_params p ->
  moderate_inputs p (map fst es) seen -> (List.length (List.concat (map snd es)) <= Z.to_nat 1048576)%nat ->
  answers fuel hist [CPredict rs] = Ret [RResults OkStatus out] ->
  Forall (fun r : @Result A => orientation_in_range acosf (r_orient r)) out.
Proof.
  intros acosf A fuel hist s p es seen rs out AS PP PE O MI CT AN. subst A.
  pose proof (C49_float_finite_prediction acosf fuel _ s p es seen rs out AS PP PE O MI CT AN) as FF.
  pose proof (C28_orientation_in_range_predict_partial acosf fuel hist rs out AN) as PF.
  apply Forall_forall. intros r IN. destruct (proj1 (Forall_forall _ _) PF r IN) as [K|K]; [exact K|].
  destruct (proj1 (Forall_forall _ _) FF r IN) as (_ & _ & _ & _ & _ & _ & K2). cbn [fisnan ieee] in K.
  destruct (r_orient r); try discriminate K2; discriminate K.
Qed.
