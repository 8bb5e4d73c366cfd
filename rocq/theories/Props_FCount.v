(** * C22 and C50 in binary32/binary64: the number of results of a Move. *)
From Coq Require Import ZArith Bool List Reals Lra Lia Psatz.
From Flocq Require Import Core BinarySingleNaN.
From Verif Require Props_Vec.
From Verif Require Import Props_Count Props_Finite Props_FEnd Props_FSpring Props_FRest Props_FRate Props_FLift Stable Filter Flt Props_Params Props_Valid.
Import ListNotations.
Open Scope R_scope.

(** ** Specification *)
(** About the number of sampling periods between two times. *)
Definition nearly_periods (rate t0 t1 x : R) : Prop :=
  Rabs (x - (t1 - t0) * rate) <= ppm * ((t1 - t0) * rate) + tiny * (1 + rate).
(** About the number of times [limit] goes into the angle [th]. *)
Definition nearly_turns (limit th y : R) : Prop :=
  Rabs (y - th / limit) <= ppm * Rabs (th / limit) + tiny.
(** One coordinate [v'] of the velocity the tip is estimated to have a time [dt] later, when
    it has the velocity [v] at [x] and is drawn towards [w] by a spring [k]. *)
Definition nearly_estimated (dt k w x v v' : R) : Prop :=
  let a := (w - x) / k in
  Rabs (v' - (v + dt * a)) <= 2 * ppm * (Rabs v + Rabs (dt * a)) + 2 * tiny * (1 + Rabs a + Rabs dt).
Definition float_estimated {acosf : float32 -> float32} (pp : PositionParams (A := ieee acosf)) (prev : Result (A := ieee acosf))
    (i0 i : Input (A := ieee acosf)) (v : Vec2 (A := ieee acosf)) : Prop :=
  let dt := real64 (i_time i) - real64 (i_time i0) in let k := real32 (pp_spring pp) in
  nearly_estimated dt k (real32 (vx (i_pos i))) (real32 (vx (r_pos prev))) (real32 (vx (r_vel prev))) (real32 (vx v)) /\
  nearly_estimated dt k (real32 (vy (i_pos i))) (real32 (vy (r_pos prev))) (real32 (vy (r_vel prev))) (real32 (vy v)).

(** ** Proof *)
Lemma delta_error : forall dt, Rabs (r32 (r64 dt) - dt) <= 2 * u24 * Rabs dt + 3 * eta.
Proof.
  intros dt. pose proof eta_0 as E0. pose proof eta_small as ES. assert (U : u24 = / 16777216) by reflexivity. pose proof (Rabs_pos dt) as PD.
  pose proof (r64_error dt) as D0. unfold u53 in D0. pose proof (size _ _ _ _ D0 (Rle_refl _)) as D1. destruct (err_le _ _ D1) as [D2 _].
  pose proof (tri _ _ _ _ _ D2 D0) as D3. eapply Rle_trans; [exact D3|]. rewrite U. lra.
Qed.
Lemma periods_error : forall t0 t1 rate, t0 <= t1 -> 0 < rate -> nearly_periods rate t0 t1 (r64 (r32 (r64 (t1 - t0)) * rate)).
Proof.
  intros t0 t1 rate LE RP. unfold nearly_periods. set (dt := t1 - t0). assert (D0 : 0 <= dt) by (unfold dt; lra). clearbody dt.
  pose proof eta_0 as E0. rewrite tiny_eta. unfold ppm. pose proof (delta_error dt) as D. rewrite (Rabs_pos_eq dt) in D by exact D0. unfold u24 in D.
  set (d := r32 (r64 dt)) in *. assert (P0 : 0 <= dt * rate) by (apply Rmult_le_pos; lra). assert (P1 : 0 <= eta * rate) by (apply Rmult_le_pos; lra).
  assert (M : Rabs (d * rate - dt * rate) <= / 8388608 * (dt * rate) + 3 * (eta * rate)).
  { rewrite <- Rmult_minus_distr_r, Rabs_mult, (Rabs_pos_eq rate) by lra.
    replace (/ 8388608 * (dt * rate) + 3 * (eta * rate)) with ((/ 8388608 * dt + 3 * eta) * rate) by ring. apply Rmult_le_compat_r; lra. }
  pose proof (size _ _ _ (dt * rate) M ltac:(rewrite Rabs_pos_eq; lra)) as S. pose proof (r64_error (d * rate)) as Q. unfold u53 in Q.
  pose proof (tri _ _ _ _ _ Q M) as T. eapply Rle_trans; [exact T|]. lra.
Qed.
Lemma turns_error : forall limit th, nearly_turns limit th (r64 (th / limit)).
Proof.
  intros limit th. unfold nearly_turns. pose proof (r64_error (th / limit)) as Q. pose proof eta_0 as E0. rewrite tiny_eta. unfold ppm, u53 in *.
  pose proof (Rabs_pos (th / limit)). lra.
Qed.
Lemma estimate_error : forall k w x v t0 t1, 0 < k -> Rabs (r32 (w - x) - (w - x)) <= u24 * Rabs (w - x) ->
  nearly_estimated (t1 - t0) k w x v (r32 (v + r32 (r32 (r64 (t1 - t0)) * r32 (r32 (w - x) / k)))).
Proof.
  intros k w x v t0 t1 K S. unfold nearly_estimated. set (a := (w - x) / k). cbv zeta.
  pose proof (euler_error v (r32 (r32 (w - x) / k)) t0 t1) as E. set (dt := t1 - t0) in *. pose proof eta_0 as E0. pose proof eta_small as ES. rewrite tiny_eta in *. unfold ppm in *.
  assert (I : 0 < / k) by (apply Rinv_0_lt_compat; exact K).
  assert (A1 : Rabs (r32 (w - x) / k - a) <= u24 * Rabs a).
  { unfold a. replace (r32 (w - x) / k - (w - x) / k) with ((r32 (w - x) - (w - x)) * / k) by (unfold Rdiv; ring). unfold Rdiv. rewrite !Rabs_mult, (Rabs_pos_eq (/ k)) by lra.
    rewrite <- Rmult_assoc. apply Rmult_le_compat_r; [lra|exact S]. }
  pose proof (size _ _ _ _ A1 (Rle_refl _)) as A2. destruct (err_le _ _ A2) as [A3 _]. pose proof (tri _ _ _ _ _ A3 A1) as A4.
  set (q := r32 (r32 (w - x) / k)) in *. pose proof (Rabs_pos a) as PA. pose proof (Rabs_pos dt) as PD. pose proof (Rabs_pos v) as PV.
  assert (U : u24 = / 16777216) by reflexivity.
  assert (A5 : Rabs (q - a) <= 3 * u24 * Rabs a + eta) by (eapply Rle_trans; [exact A4|]; rewrite U; lra). clear A4 A3 A2 A1 S. clearbody q a dt.
  pose proof (size _ _ _ _ A5 (Rle_refl _)) as Q1.
  assert (DA : Rabs (dt * q - dt * a) <= 3 * u24 * Rabs (dt * a) + eta * Rabs dt).
  { rewrite <- Rmult_minus_distr_l, !Rabs_mult. replace (3 * u24 * (Rabs dt * Rabs a) + eta * Rabs dt) with (Rabs dt * (3 * u24 * Rabs a + eta)) by ring. apply Rmult_le_compat_l; lra. }
  pose proof (size _ _ _ _ DA (Rle_refl _)) as Q2. pose proof (Rabs_pos (dt * a)) as PM.
  assert (PE : 0 <= eta * Rabs dt) by (apply Rmult_le_pos; lra). assert (PF : 0 <= eta * Rabs a) by (apply Rmult_le_pos; lra).
  assert (Q3 : 16 * eta * (1 + Rabs q) <= 16 * eta * (1 + (Rabs a + (3 * u24 * Rabs a + eta)))) by (apply Rmult_le_compat_l; lra).
  assert (DB : Rabs (v + dt * q - (v + dt * a)) <= 3 * u24 * Rabs (dt * a) + eta * Rabs dt).
  { replace (v + dt * q - (v + dt * a)) with (dt * q - dt * a) by ring. exact DA. }
  pose proof (tri _ _ _ _ _ E DB) as T. eapply Rle_trans; [exact T|].
  replace (16 * eta * (1 + (Rabs a + (3 * u24 * Rabs a + eta)))) with (16 * eta + 16 * (eta * Rabs a) + 48 * u24 * (eta * Rabs a) + 16 * (eta * eta)) in Q3 by ring.
  assert (EE : eta * eta <= eta * u24) by (apply Rmult_le_compat_l; lra). rewrite U in *.
  replace (2 * (16 * eta) * (1 + Rabs a + Rabs dt)) with (32 * eta + 32 * (eta * Rabs a) + 32 * (eta * Rabs dt)) by ring.
  set (Ea := eta * Rabs a) in *. set (Ed := eta * Rabs dt) in *. set (ee := eta * eta) in *. clearbody Ea Ed ee. clear - Q2 Q3 EE PM PE PF E0 PV. lra.
Qed.

Section Count.
Variable acosf : float32 -> float32.
Let A := ieee acosf.
#[local] Existing Instance A.

Lemma ceil_int : forall (x : float64) z, dtoint (std_dmin (dceil (x : D)) (dofZ INT_MAX)) = Some z -> (z < INT_MAX)%Z -> is_finite x = true /\ z = Zceil (B2R x).
Proof.
  intros x z Z L. unfold A in *. cbn [dtoint dceil dofZ ieee] in Z. unfold std_dmin in Z. cbn [dltb ieee] in Z.
  destruct (ofZ_64 INT_MAX) as [I1 I2]; [reflexivity|]. set (M := binary_normalize 53 1024 _ _ mode_NE INT_MAX 0 false) in *.
  destruct (Bltb M (Bnearbyint mode_UP (x : float64))) eqn:E; apply (to_int_some 53 1024) in Z; try exact _.
  - exfalso. destruct Z as (_ & Z & _). rewrite I2, Ztrunc_IZR in Z. lia.
  - destruct Z as (F & Z & _). destruct (Bnearbyint_correct 53 1024 _ mode_UP (x : float64)) as (_ & K & _). rewrite K in F. split; [exact F|].
    destruct (ceil_fin 53 1024 _ (x : float64) F) as [_ CE]. rewrite CE, Ztrunc_IZR in Z. exact Z.
Qed.

Lemma steps_exact : forall tip a b sp pp n, number_of_steps tip a b sp pp = Ret (IOk n) -> (sp_max_outputs sp < INT_MAX)%Z ->
  let x := dmul (f2d (d2f (dsub (i_time b) (i_time a)))) (sp_rate sp) : float64 in
  let v := vadd (t_vel tip) (vscale (d2f (dsub (i_time b) (i_time a))) (vdiv (vsub (i_pos b) (t_pos tip)) (pp_spring pp))) in
  is_finite x = true /\ exists th, absolute_angle_to (t_vel tip) v = Some th /\
    if dltb d0 (sp_max_angle sp) then
      is_finite (ddiv (f2d th) (sp_max_angle sp) : float64) = true /\ n = Z.max (Zceil (B2R x)) (Zceil (B2R (ddiv (f2d th) (sp_max_angle sp) : float64)))
    else n = Zceil (B2R x).
Proof.
  intros tip a b sp pp n NS MO x v. unfold number_of_steps in NS. fold x v in NS. clearbody x v.
  destruct (dtoint _) as [z|] eqn:Z in NS; cbn [to_int] in NS; [|discriminate NS].
  destruct (absolute_angle_to (t_vel tip) v) as [th|] eqn:TH; [|discriminate NS].
  assert (FIN : forall k, (if Z.ltb (sp_max_outputs sp) k then Ret (IErr (InvalidArgument msg_too_far)) else Ret (IOk k)) = Ret (IOk n) -> k = n /\ (n <= sp_max_outputs sp)%Z).
  { intros k. destruct (Z.ltb_spec (sp_max_outputs sp) k); intros Q; apply ret_inj in Q; [discriminate Q|]. assert (k = n) by congruence. split; [assumption|lia]. }
  destruct (dltb d0 (sp_max_angle sp)) eqn:MA.
  - unfold to_int in NS. destruct (dtoint _) as [z2|] eqn:Z2 in NS; [|discriminate NS]. apply FIN in NS. destruct NS as [NE NL].
    apply ceil_int in Z; [|destruct (Z.ltb_spec z z2); lia]. apply ceil_int in Z2; [|destruct (Z.ltb_spec z z2); lia].
    destruct Z as [F1 Z]. destruct Z2 as [F2 Z2]. split; [exact F1|]. exists th. split; [reflexivity|]. split; [exact F2|].
    rewrite <- Z, <- Z2, <- NE. destruct (Z.ltb_spec z z2); lia.
  - apply FIN in NS. destruct NS as [NE NL]. apply ceil_int in Z; [|lia]. destruct Z as [F1 Z]. split; [exact F1|]. exists th. split; [reflexivity|]. congruence.
Qed.

Lemma period_count : forall (ta tb rt : float64), is_finite ta = true -> is_finite tb = true -> B2R ta <= B2R tb -> 0 < B2R rt ->
  is_finite (Bmult mode_NE (b32_to_b64 (b64_to_b32 (Bminus mode_NE tb ta))) rt) = true ->
  nearly_periods (B2R rt) (B2R ta) (B2R tb) (B2R (Bmult mode_NE (b32_to_b64 (b64_to_b32 (Bminus mode_NE tb ta))) rt)) /\
  (0 <= Zceil (B2R (Bmult mode_NE (b32_to_b64 (b64_to_b32 (Bminus mode_NE tb ta))) rt)))%Z.
Proof.
  intros ta tb rt FA FB LE RP FX. destruct (Props_FRate.mult_inv _ _ FX) as (F1 & _ & E1). rewrite E1.
  assert (F2 : is_finite (b64_to_b32 (Bminus mode_NE tb ta)) = true) by (destruct (b64_to_b32 (Bminus mode_NE tb ta)); try reflexivity; discriminate F1).
  destruct (f2d_fin _ F2) as [_ E2]. rewrite E2. pose proof (d2f_finite _ F2) as F3. rewrite (d2f_inv _ F3 F2), (minus_inv64 _ _ FB FA F3).
  split; [apply periods_error; assumption|]. apply le_IZR. eapply Rle_trans; [|apply Zceil_ub].
  apply rnd_ge0; [reflexivity|]. apply Rmult_le_pos; [|lra]. apply rnd_ge0; [reflexivity|]. apply rnd_ge0; [reflexivity|]. lra.
Qed.

Lemma f2d_value : forall x : float32, B2R (b32_to_b64 x) = B2R x.
Proof. intros x. destruct (is_finite x) eqn:F; [exact (proj2 (f2d_fin _ F))|]. destruct x; try discriminate F; reflexivity. Qed.
Lemma turns_value : forall (th : float32) (lim : float64), B2R lim <> 0 -> is_finite (Bdiv mode_NE (b32_to_b64 th) lim) = true ->
  B2R (Bdiv mode_NE (b32_to_b64 th) lim) = r64 (B2R th / B2R lim).
Proof. intros th lim L F. rewrite (div_inv64 _ _ L F), f2d_value. reflexivity. Qed.

Lemma coord_estimate : forall (k w x v v' : float32) (ta tb : float64) rx rv, is_finite ta = true -> is_finite tb = true -> 0 < B2R k -> num rx x -> num rv v ->
  v' = Bplus mode_NE v (Bmult mode_NE (b64_to_b32 (Bminus mode_NE tb ta)) (Bdiv mode_NE (Bminus mode_NE w x) k)) -> is_finite v' = true ->
  nearly_estimated (B2R tb - B2R ta) (B2R k) (B2R w) rx rv (B2R v').
Proof.
  intros k w x v v' ta tb rx rv FA FB K [FX <-] [FV <-] -> F.
  destruct (plus_inv _ _ F) as (_ & F1 & E1). rewrite E1. destruct (Props_FSpring.mult_inv _ _ F1) as (F2 & F3 & E2). rewrite E2.
  destruct (Props_FSpring.div_inv _ k (Rgt_not_eq _ _ K) F3) as (F4 & E3). rewrite E3. destruct (minus_inv _ _ F4) as (F5 & _ & E4). rewrite E4.
  pose proof (d2f_finite _ F2) as F6. rewrite (d2f_inv _ F6 F2), (minus_inv64 _ _ FB FA F6). apply estimate_error; [exact K|]. apply sub_rel; assumption.
Qed.

(** The tip of the last result. *)
Lemma prev_tip : forall fuel hist s p es prev m rs, after_stroke fuel hist s es -> run fuel modeler0 hist = Ret (m, rs) -> m_params m = Some p -> m_last m <> None ->
  lp_enabled (pp_loop (p_position p)) = false -> sy_normal (p_stylus p) = false -> plain_down es ->
  back (List.concat (map snd es)) = Some prev -> Forall finite_motion (List.concat (map snd es)) ->
  0 < B2R (pp_spring (p_position p) : float32) -> same_tip acosf prev (pm_state (m_pos m)).
Proof.
  intros fuel hist s p es prev m rs AS R0 T1 ML LP SN PD BK FE K0.
  destruct (chain_state fuel _ _ _ AS) as (m0 & rs0 & R & _ & _ & _ & CH). rewrite R0 in R. apply ret_inj in R. injection R as <- <-.
  destruct (m_last m) as [lst|] eqn:EL; [|contradiction ML; reflexivity].
  destruct (CH p lst T1 eq_refl) as (d & es' & ws & EE & LW & KC & KW & KD). clear CH.
  destruct PD as (d0 & out0 & es0 & E0 & U1 & U2 & U3). rewrite EE in E0. injection E0 as <- _ _.
  destruct (KD LP SN U1 U2 U3) as (J1 & J2 & J3 & TR). clear KD. cbn [core_of co_tip co_last co_s] in TR.
  rewrite EE in BK, FE. cbn [map snd fst List.concat app] in BK, FE. destruct (back_last _ _ _ prev BK) as [PV _].
  pose proof (Forall_inv FE) as FD. apply Forall_inv_tail in FE.
  rewrite <- PV. assert (MM : map snd (combine ws (map snd es')) = map snd es').
  { clear - LW. revert ws LW. induction es' as [|e es' IH]; intros [|w ws] LW; try discriminate LW; [reflexivity|]. cbn. f_equal. apply IH. cbn in LW. lia. }
  rewrite <- MM. eapply (traced_same acosf fuel (p_position p) K0); [exact TR| |rewrite MM; exact FE].
  destruct FD as ((P1 & P2) & (V1 & V2) & (A1 & A2) & T). cbn [down_result r_pos r_vel r_acc r_time] in *.
  repeat split; cbn [t_pos t_vel t_acc t_time r_pos r_vel r_acc r_time down_result]; assumption.
Qed.

(** What is known after an accepted Move. *)
Lemma move_counted : forall fuel hist s p i0 i rs out, after fuel hist s -> ps_params s = Some p -> ps_last s = Some i0 -> i_event i = EMove ->
  answers fuel hist [CUpdate i rs] = Ret [RResults OkStatus (rs ++ out)] ->
  exists m r0 n, run fuel modeler0 hist = Ret (m, r0) /\ m_params m = Some p /\ m_last m <> None /\ validate_params p = OkStatus /\
    is_finite (i_time i0 : float64) = true /\ is_finite (i_time i : float64) = true /\ B2R (i_time i0 : float64) <= B2R (i_time i : float64) /\
    number_of_steps (pm_state (m_pos m)) i0 i (p_sampling p) (p_position p) = Ret (IOk n) /\ List.length out = Z.to_nat n.
Proof.
  intros fuel hist s p i0 i rs out AF P PL EV AN.
  destruct (accepted_update _ _ _ _ _ _ _ AF AN) as (m & r0 & m' & o & R & (T1 & T2 & _) & G & C & K & U & _).
  apply app_inv_head in K. subst o.
  destruct (upd_move _ _ _ _ _ U EV) as (p0 & lst & w & c & sm & n & tip & tips & pred & lm & MP & VI & ML & DL & WU & SU & NS & UA & UP & MS & EM).
  assert (p0 = p) by congruence. subst p0. assert (EL : i0 = li_input lst) by (rewrite ML, PL in T2; apply some_inj in T2; exact T2). subst i0.
  destruct (last_valid_run fuel hist _ _ _ last_valid0 R) as [LV _]. specialize (LV _ ML).
  apply input_F in VI, LV. destruct VI as (_ & _ & F1), LV as (_ & _ & F0).
  unfold A in DL. cbn [dltb ieee] in DL. apply (ltb_false_R 53 1024) in DL; [|exact F1|exact F0].
  exists m, r0, n. split; [exact R|]. split; [exact MP|]. split; [congruence|]. split; [exact (g_valid _ G p MP)|]. split; [exact F0|]. split; [exact F1|]. split; [exact DL|].
  split; [exact NS|]. apply update_along_path_length in UA. apply model_stylus_length in MS. congruence.
Qed.
Lemma rate_positive : forall p, validate_params p = OkStatus -> 0 < B2R (sp_rate (p_sampling p) : float64).
Proof.
  intros p V. destruct (validate_params_parts p V) as (_ & _ & VP & _). unfold validate_sampling in VP.
  apply and_then_ok in VP. destruct VP as [V1 _]. apply gt0_d_F in V1. exact (proj2 V1).
Qed.
Lemma spring_positive : forall p, validate_params p = OkStatus -> 0 < B2R (pp_spring (p_position p) : float32).
Proof.
  intros p V. destruct (validate_params_parts p V) as (_ & VP & _). unfold validate_position in VP.
  apply and_then_ok in VP. destruct VP as [_ VP]. apply and_then_ok in VP. destruct VP as [V1 _]. apply gt0_f_F in V1. exact (proj2 V1).
Qed.
End Count.

(** Without an angle limit a Move has as many results as there are sampling periods
    since the last input, rounded up. *)
Theorem C22_float_move_exact_count : forall acosf (A := ieee acosf) fuel hist s (p : StrokeModelParams (A := ieee acosf)) (i0 i : Input (A := ieee acosf)) rs out,
  after fuel hist s -> ps_params s = Some p -> ps_last s = Some i0 -> i_event i = EMove ->
  real64 (sp_max_angle (p_sampling p)) = -1 -> (sp_max_outputs (p_sampling p) < INT_MAX)%Z ->
  answers fuel hist [CUpdate i rs] = Ret [RResults OkStatus (rs ++ out)] ->
  exists x, nearly_periods (real64 (sp_rate (p_sampling p))) (real64 (i_time i0)) (real64 (i_time i)) x /\ Z.of_nat (List.length out) = Zceil x.
Proof.
  intros acosf A fuel hist s p i0 i rs out AF P PL EV MA MO AN. subst A.
  destruct (move_counted acosf _ _ _ _ _ _ _ _ AF P PL EV AN) as (m & r0 & n & R & MP & ML & V & F0 & F1 & LE & NS & LEN).
  destruct (steps_exact acosf _ _ _ _ _ _ NS MO) as (FX & th & TH & CN).
  assert (NA : dltb (Arith := ieee acosf) d0 (sp_max_angle (p_sampling p)) = false).
  { clear - MA. unfold real64 in MA. set (a := sp_max_angle (p_sampling p)) in *. clearbody a. change float64 in a.
    destruct (dltb (Arith := ieee acosf) d0 a) eqn:E; [|reflexivity]. exfalso.
    assert (FA : is_finite a = true) by (destruct a; cbn in MA; try (exfalso; lra); reflexivity).
    cbn [dltb ieee] in E. apply (ltb_R 53 1024) in E; [|reflexivity|exact FA]. rewrite MA in E. cbn in E. lra. }
  rewrite NA in CN. destruct (period_count (i_time i0) (i_time i) (sp_rate (p_sampling p)) F0 F1 LE (rate_positive acosf p V) FX) as [NP C0].
  eexists. split; [exact NP|]. rewrite LEN, CN. apply Z2Nat.id. exact C0.
Qed.

(** With an angle limit it has as many results as there are sampling periods, or
    as the limit goes into the angle between the current velocity and its estimate
    after the input, whichever is more. *)
Theorem C50_float_exact_count : forall acosf (A := ieee acosf) fuel hist s (p : StrokeModelParams (A := ieee acosf)) (i0 i : Input (A := ieee acosf)) rs out es prev,
  after_stroke fuel hist s es -> ps_params s = Some p -> ps_last s = Some i0 -> i_event i = EMove ->
  lp_enabled (pp_loop (p_position p)) = false -> sy_normal (p_stylus p) = false -> plain_down es ->
  back (List.concat (map snd es)) = Some prev -> Forall finite_motion (List.concat (map snd es)) ->
  0 < real64 (sp_max_angle (p_sampling p)) -> (sp_max_outputs (p_sampling p) < INT_MAX)%Z ->
  answers fuel hist [CUpdate i rs] = Ret [RResults OkStatus (rs ++ out)] ->
  exists u v th x y, same_numbers u (r_vel prev) /\ float_estimated (p_position p) prev i0 i v /\
    absolute_angle_to u v = Some th /\
    nearly_periods (real64 (sp_rate (p_sampling p))) (real64 (i_time i0)) (real64 (i_time i)) x /\
    nearly_turns (real64 (sp_max_angle (p_sampling p))) (real32 th) y /\
    Z.of_nat (List.length out) = Z.max (Zceil x) (Zceil y).
Proof.
  intros acosf A fuel hist s p i0 i rs out es prev AS P PL EV LP SN PD BK FE MA MO AN. subst A.
  assert (AF : after fuel hist s) by (destruct AS as (ma & rsa & Ra & Pa & _); exists ma, rsa; auto).
  destruct (move_counted acosf _ _ _ _ _ _ _ _ AF P PL EV AN) as (m & r0 & n & R & MP & ML & V & F0 & F1 & LE & NS & LEN).
  destruct (steps_exact acosf _ _ _ _ _ _ NS MO) as (FX & th & TH & CN).
  pose proof (spring_positive acosf p V) as K0.
  pose proof (prev_tip acosf _ _ _ _ _ _ _ _ AS R MP ML LP SN PD BK FE K0) as ((PX & PY) & (VX & VY) & _).
  assert (NA : dltb (Arith := ieee acosf) d0 (sp_max_angle (p_sampling p)) = true).
  { clear - MA. unfold real64 in MA. set (a := sp_max_angle (p_sampling p)) in *. clearbody a. change float64 in a.
    destruct (dltb (Arith := ieee acosf) d0 a) eqn:E; [reflexivity|]. exfalso.
    assert (FA : is_finite a = true) by (destruct a; cbn in MA; try (exfalso; lra); reflexivity).
    cbn [dltb ieee] in E. apply (ltb_false_R 53 1024) in E; [|reflexivity|exact FA]. cbn in E. lra. }
  rewrite NA in CN. destruct CN as [FY CN].
  destruct (period_count (i_time i0) (i_time i) (sp_rate (p_sampling p)) F0 F1 LE (rate_positive acosf p V) FX) as [NP C0].
  set (v := vadd _ _) in TH. exists (t_vel (pm_state (m_pos m))), v, th.
  eexists. eexists. split; [|split; [|split; [exact TH|split; [exact NP|split]]]].
  - split; [exact (proj2 VX)|exact (proj2 VY)].
  - assert (FV : is_finite (vx v : float32) = true /\ is_finite (vy v : float32) = true).
    { destruct (is_finite (vx v : float32)) eqn:G1; [destruct (is_finite (vy v : float32)) eqn:G2; [auto|]|]; exfalso;
        (assert (NN : absolute_angle_to (t_vel (pm_state (m_pos m))) v = None) by (apply (Props_Vec.C53_angle_error_iff acosf); intros (_ & _ & Q1 & Q2); congruence); congruence). }
    split; [eapply (coord_estimate _ _ _ _ (vx v)); [exact F0|exact F1|exact K0|exact PX|exact VX|reflexivity|exact (proj1 FV)]|
            eapply (coord_estimate _ _ _ _ (vy v)); [exact F0|exact F1|exact K0|exact PY|exact VY|reflexivity|exact (proj2 FV)]].
  - assert (E : B2R (ddiv (Arith := ieee acosf) (f2d th) (sp_max_angle (p_sampling p)) : float64) = r64 (real32 th / real64 (sp_max_angle (p_sampling p)))) by exact (turns_value th (sp_max_angle (p_sampling p)) (Rgt_not_eq _ _ MA) FY).
    eapply eq_ind_r with (P := fun z => nearly_turns _ _ z); [|exact E]. apply turns_error.
  - rewrite LEN, CN. apply Z2Nat.id. lia.
Qed.
