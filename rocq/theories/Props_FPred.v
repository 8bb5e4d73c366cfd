(** * C23 and C22 for predictions and for ordinary strokes, in IEEE arithmetic. *)
From Coq Require Import ZArith Bool List Sorted Reals Lra Lia Psatz.
From Flocq Require Import Core.Core IEEE754.BinarySingleNaN Relative.
From Verif Require Export Props_FRate Props_FKalman.
Import ListNotations.
Open Scope R_scope.

Lemma sorted_chain : forall l1 l2 x, Sorted Rle (x :: l1) -> Sorted Rle (last l1 x :: l2) -> Sorted Rle (x :: l1 ++ l2).
Proof.
  induction l1 as [|y l1 IH]; intros l2 x H1 H2; [exact H2|]. rewrite last_cons' in H2. cbn [app].
  apply Sorted_inv in H1. destruct H1 as [H1 H3]. constructor; [apply IH; assumption|]. constructor. inversion H3; assumption.
Qed.

Section FPred.
Variable acosf : float32 -> float32.
Let A := ieee acosf.
Local Existing Instance A.

Definition times_of (tips : list TipState) : list R := map (fun t : TipState => B2R (t_time t : float64)) tips.
Definition finite_times (tips : list TipState) : Prop := Forall (fun t : TipState => is_finite (t_time t : float64) = true) tips.

Lemma plus_inv : forall x y : float64, is_finite (Bplus mode_NE x y) = true ->
  is_finite x = true /\ is_finite y = true /\ B2R (Bplus mode_NE x y) = r64 (B2R x + B2R y).
Proof.
  intros x y H.
  assert (FX : is_finite x = true) by (destruct x as [s|s| |s m e B]; try reflexivity; destruct y as [u|u| |u m' e' B']; try discriminate H; destruct s, u; discriminate H).
  assert (FY : is_finite y = true) by (destruct y as [s|s| |s m e B]; try reflexivity; destruct x as [u|u| |u m' e' B']; try discriminate H; discriminate FX).
  split; [exact FX|]. split; [exact FY|].
  pose proof (Bplus_correct 53 1024 _ _ mode_NE x y FX FY) as K. destruct (Rlt_bool _ _) eqn:E.
  - destruct K as (K & _). exact K.
  - destruct K as (K & _). rewrite overflow_NE in K. apply B2SF_inf in K. rewrite K in H. discriminate H.
Qed.

(** *** The parts of a Kalman prediction *)
Lemma extension_sorted : forall n e (t h : float64), nonneg64 h -> is_finite t = true -> finite_times (cubic_prediction e t h n) ->
  Sorted Rle (B2R t :: times_of (cubic_prediction e t h n)).
Proof.
  induction n as [|n IH]; intros e t h N FT F; cbn [cubic_prediction] in *; [repeat constructor|].
  pose proof (Forall_inv F) as F1. apply Forall_inv_tail in F. cbn [t_time] in F1. unfold A in F1. cbn [dadd ieee] in F1.
  pose proof (plus_up t h FT N F1) as L. cbn [times_of map t_time]. constructor; [apply IH; assumption|]. constructor. exact L.
Qed.

Lemma conn_time : forall (tip : TipState) e (d : float64) n j, nonneg64 d -> (Z.of_nat j <= n)%Z -> (1 <= n <= INT_MAX)%Z ->
  is_finite (t_time (connector_tip tip e d n (Z.of_nat j)) : float64) = true ->
  is_finite d = true /\ 0 <= B2R d /\
  B2R (t_time (connector_tip tip e d n (Z.of_nat j)) : float64) = r64 (B2R (t_time tip : float64) + r64 (B2R d * B2R (ratio n j))).
Proof.
  intros tip e d n j ND J N F. unfold connector_tip in *. cbn [t_time] in *. unfold A in *. cbn [dadd dmul f2d fdiv fofZ ieee] in *.
  match type of F with context [b32_to_b64 ?x] => change x with (ratio n j) in * end.
  destruct (ratio_fin n j J N) as ((FR & _) & _). destruct (f2d_fin (ratio n j) FR) as [F2 E2].
  destruct (plus_inv _ _ F) as (_ & FM & EP). destruct (mult_inv _ _ FM) as (FD & _ & EM).
  split; [exact FD|]. split; [destruct d; try discriminate FD; exact ND|]. rewrite EP, EM, E2. reflexivity.
Qed.

Lemma sorted_seq : forall (f : nat -> R) k j, (forall i, (j <= i < j + k)%nat -> f i <= f (S i)) -> Sorted Rle (map f (seq j (S k))).
Proof.
  intros f. induction k as [|k IH]; intros j H; [repeat constructor|].
  cbn [seq map]. constructor; [apply (IH (S j)); intros i I; apply H; lia|]. constructor. apply H. lia.
Qed.

Lemma conn_sorted : forall (tip : TipState) e (d : float64) n, nonneg64 d -> (1 <= n <= INT_MAX)%Z -> is_finite (t_time tip : float64) = true ->
  finite_times (map (fun i => connector_tip tip e d n (Z.of_nat i)) (seq 1 (Z.to_nat n))) ->
  Sorted Rle (B2R (t_time tip : float64) :: times_of (map (fun i => connector_tip tip e d n (Z.of_nat i)) (seq 1 (Z.to_nat n)))).
Proof.
  intros tip e d n ND N FT F. unfold times_of. rewrite map_map.
  set (f := fun j : nat => match j with O => B2R (t_time tip : float64) | S _ => B2R (t_time (connector_tip tip e d n (Z.of_nat j)) : float64) end).
  assert (E : B2R (t_time tip : float64) :: map (fun x => B2R (t_time (connector_tip tip e d n (Z.of_nat x)) : float64)) (seq 1 (Z.to_nat n)) = map f (seq 0 (S (Z.to_nat n)))).
  { cbn [seq map]. f_equal. apply map_ext_in. intros j IN. apply in_seq in IN. destruct j; [lia|reflexivity]. }
  rewrite E. apply sorted_seq. intros i I.
  assert (K : forall j, (1 <= j <= Z.to_nat n)%nat -> is_finite d = true /\ 0 <= B2R d /\
    B2R (t_time (connector_tip tip e d n (Z.of_nat j)) : float64) = r64 (B2R (t_time tip : float64) + r64 (B2R d * B2R (ratio n j)))).
  { intros j J. apply conn_time; [exact ND|lia|exact N|]. unfold finite_times in F. rewrite Forall_map, Forall_forall in F. apply F. apply in_seq. lia. }
  destruct (K (S i) ltac:(lia)) as (_ & D0 & K1). destruct (ratio_fin n (S i) ltac:(lia) N) as ((_ & R0 & _) & _).
  destruct i as [|i]; unfold f; rewrite K1.
  - apply rnd_ge_fmt; [reflexivity|apply fmt_B2R|]. assert (0 <= r64 (B2R d * B2R (ratio n 1))) by (apply rnd_ge0; [reflexivity|apply Rmult_le_pos; assumption]). lra.
  - rewrite (proj2 (proj2 (K (S i) ltac:(lia)))). apply rnd_le; [reflexivity|]. apply Rplus_le_compat_l. apply rnd_le; [reflexivity|].
    apply Rmult_le_compat_l; [exact D0|]. apply ratio_mono; [lia|lia|exact N].
Qed.

Lemma times_app : forall a b, times_of (a ++ b) = times_of a ++ times_of b.
Proof. intros a b. apply map_app. Qed.
Lemma back_last : forall (l : list TipState) (d : float64), B2R (match back l with Some t => t_time t | None => d end : float64) = last (times_of l) (B2R d).
Proof.
  intros l d. destruct l as [|a l] using rev_ind; [reflexivity|]. rewrite back_snoc, times_app. cbn [times_of map]. rewrite last_last. reflexivity.
Qed.
Lemma inverse_nonneg : forall sp : SamplingParams, validate_sampling sp = OkStatus -> nonneg64 (ddiv (dofZ 1) (sp_rate sp)).
Proof.
  intros sp VS. unfold validate_sampling in VS. apply and_then_ok in VS.
  destruct VS as [VR _]. apply gt0_d_F in VR. destruct VR as [R1 R2]. unfold A. cbn [ddiv dofZ ieee].
  apply (div_nonneg 53 1024); [|exact R1|exact R2]. apply nonneg_fin; [apply (ofZ_64 1); reflexivity|].
  rewrite (proj2 (ofZ_64 1 eq_refl)). lra.
Qed.
Lemma dur_nonneg : forall n (h : float64), (1 <= n <= INT_MAX)%Z -> nonneg64 h -> nonneg64 (dmul (dofZ n) h).
Proof.
  intros n h N H. unfold INT_MAX in N. unfold A. cbn [dmul dofZ ieee]. destruct (ofZ_64 n ltac:(lia)) as [F E].
  assert (P : pos 53 1024 (binary_normalize 53 1024 prec_gt_0_64 prec_lt_emax_64 mode_NE n 0 false)).
  { set (z := binary_normalize _ _ _ _ _ _ _ _) in *. assert (0 < B2R z) by (rewrite E; apply IZR_lt; lia). destruct z; try discriminate F; exact H0. }
  apply mult_nonneg; [apply pos_nonneg; exact P|exact H|left; exact F|right; exact P].
Qed.

Lemma to_int_max : forall (x : float32) z, b_to_int x = Some z -> (z <= INT_MAX)%Z.
Proof.
  intros x z H. unfold b_to_int in H. destruct (is_finite x); [|discriminate H].
  destruct (Z.leb_spec INT_MIN (Btrunc x)); [|discriminate H]. destruct (Z.leb_spec (Btrunc x) INT_MAX); [|discriminate H].
  cbn [andb] in H. apply some_inj in H. subst z. assumption.
Qed.
Lemma kalman_sorted : forall k (tip : TipState) tips, validate_sampling (k_sampling k) = OkStatus -> is_finite (t_time tip : float64) = true ->
  kpred_predict k tip = Ret tips -> finite_times tips -> Sorted Rle (B2R (t_time tip : float64) :: times_of tips).
Proof.
  intros k tip tips V FT H F. unfold kpred_predict in H. destruct (kpred_estimate k) as [e|]; [|apply ret_inj in H; subst tips; repeat constructor].
  destruct (k_last k) as [q|]; [|apply ret_inj in H; subst tips; repeat constructor]. cbv zeta in H.
  pose proof (inverse_nonneg _ V) as N. set (h := ddiv (dofZ 1) (sp_rate (k_sampling k))) in *. clearbody h.
  bind_inv H. rename x into conn. unfold to_int in H. destruct (kpred_number_of_points k q e) as [n2|]; [|discriminate H]. apply ret_inj in H.
  unfold cubic_connector, to_int in E. destruct (connector_points tip e (k_params k) h) as [n|] eqn:CP; [|discriminate E]. cbv zeta in E. apply ret_inj in E.
  subst tips. apply Forall_app in F. destruct F as [F1 F2]. rewrite times_app.
  assert (S1 : Sorted Rle (B2R (t_time tip : float64) :: times_of conn)).
  { destruct (Z_le_gt_dec n 0) as [NZ|NZ]; [replace (Z.to_nat n) with 0%nat in E by lia; subst conn; repeat constructor|].
    assert (NI : (n <= INT_MAX)%Z).
    { exact (to_int_max _ _ CP). }
    subst conn. apply conn_sorted; try assumption; [|lia]. apply dur_nonneg; [lia|exact N]. }
  apply sorted_chain; [exact S1|]. rewrite <- back_last. apply extension_sorted; [exact N| |exact F2].
  destruct (back conn) as [t|] eqn:B; [|exact FT]. apply back_in in B. exact (proj1 (Forall_forall _ _) F1 t B).
Qed.

Lemma predictor_sorted : forall p o pr (tip : TipState) tips, validate_params p = OkStatus -> o = Some pr -> reset_pred o = make_predictor p ->
  is_finite (t_time tip : float64) = true -> pred_construct pr tip = Ret tips -> finite_times tips ->
  Sorted Rle (B2R (t_time tip : float64) :: times_of tips).
Proof.
  intros p o pr tip tips V -> RP FT PC F. destruct (validate_params_parts p V) as (_ & _ & VS & _).
  destruct pr as [pp sp [pos|]|k]; cbn [pred_construct] in PC.
  - destruct (model_end_of_stroke _ _ _ _ _ _) as [sf o] eqn:ME in PC. cbn [snd] in PC. apply ret_inj in PC. subst o.
    assert (ES : sp = p_sampling p).
    { cbn [reset_pred option_map pred_reset] in RP. unfold make_predictor in RP. destruct (p_prediction p); congruence. }
    subst sp. destruct (end_timed acosf _ _ _ _ _ _ _ _ (inverse_nonneg _ VS) FT ME) as [E1 _].
    apply StronglySorted_Sorted. specialize (E1 F). rewrite map_map in E1. exact E1.
  - apply ret_inj in PC. subst tips. repeat constructor.
  - apply (kalman_sorted k); try assumption.
    assert (ES : k_sampling k = p_sampling p).
    { cbn [reset_pred option_map pred_reset] in RP. unfold make_predictor in RP. destruct (p_prediction p) as [|kp|]; try discriminate RP. apply some_inj in RP.
      apply (f_equal (fun q => match q with PKal k => k_sampling k | _ => p_sampling p end)) in RP. exact RP. }
    rewrite ES. exact VS.
Qed.

(** There is an input in memory during a stroke, if mitigation is on. *)
Definition remembers (p : StrokeModelParams) (es : list entry) (c : core) : Prop :=
  lp_enabled (pp_loop (p_position p)) = true -> s_raw (co_s c) <> [].
Lemma remembers_state : forall fuel hist s es, after_stroke fuel hist s es ->
  exists m rs, run fuel modeler0 hist = Ret (m, rs) /\ tracks s m /\ good m /\ cons m /\
    (forall p last, m_params m = Some p -> m_last m = Some last -> remembers p es (core_of p m last)).
Proof.
  intros fuel hist s es AS. refine (after_stroke_state fuel (fun _ => True) remembers _ _ _ hist s es AS (call_in_true hist)).
  - intros p m i m' out _ MP V G U EV L. destruct (upd_down fuel m i m' out U EV) as (q & sm & pred & MQ & _ & _ & SU & _ & _ & ->).
    assert (q = p) by congruence. subst q. cbn [core_of co_s m_stylus]. refine (raw_kept p _ _ _ _ _ _ _ V _ L SU); reflexivity.
  - intros p m i m' out is lst last' _ MP V G (_ & _ & C3 & _) ML J U EV ML' L.
    destruct (upd_move fuel m i m' out U EV) as (p0 & last0 & w & c & sm & n & tip & tips & pred & lm & MP0 & _ & _ & _ & _ & SU & _ & _ & _ & _ & ->).
    cbn [core_of co_s m_stylus]. exact (raw_kept p _ _ _ _ _ _ _ V C3 L SU).
  - intros p m i m' out is lst e _ MP V G CP ML J U NE. inversion U; subst; try congruence; try exact J. intros L. destruct CP as (_ & _ & C3 & _). cbn [core_of co_s m_stylus]. eapply raw_kept; [exact V|exact C3|exact L|eassumption].
Qed.

(** *** How far apart they are *)
Lemma r64_error_out : forall x, Rabs (r64 x - x) <= u53 * Rabs (r64 x) + eta.
Proof.
  intros x. pose proof (error_le_half_ulp_round radix2 (FLT_exp (-1074) 53) (fun z => negb (Z.even z)) x) as H.
  change (round radix2 (FLT_exp (-1074) 53) (Znearest (fun z => negb (Z.even z))) x) with (r64 x) in H.
  eapply Rle_trans; [exact H|]. unfold u53. pose proof eta_pos as E0. pose proof (Rabs_pos (r64 x)) as P.
  destruct (Rle_lt_dec (bpow radix2 (-1074 + 53 - 1)) (Rabs (r64 x))) as [L|L].
  - pose proof (ulp_FLT_le radix2 (-1074) 53 (r64 x) L) as K.
    assert (EB : bpow radix2 (1 - 53) = / 4503599627370496) by reflexivity. rewrite EB in K. lra.
  - assert (K : ulp radix2 (FLT_exp (-1074) 53) (r64 x) = bpow radix2 (-1074)).
    { apply ulp_FLT_small; [reflexivity|]. eapply Rlt_trans; [exact L|]. apply bpow_lt. lia. }
    rewrite K. assert (E1 : bpow radix2 (-1074) <= eta) by (apply bpow_le; lia). pose proof (bpow_gt_0 radix2 (-1074)). lra.
Qed.
Definition short (rate : R) (h : float64) : Prop := is_finite h = true /\ 0 <= B2R h <= / rate * (1 + u53) + eta.
Lemma short_rate : forall r : float64, is_finite r = true -> rate_moderate (B2R r) -> short (B2R r) (ddiv (dofZ 1) r).
Proof.
  intros r F [R1 R2]. unfold A. cbn [ddiv dofZ ieee]. destruct (ofZ_64 1 eq_refl) as [F1 E1]. set (o := binary_normalize _ _ _ _ _ _ _ _) in *. clearbody o.
  cbn in E1.
  assert (RI : 0 < / B2R r <= 1048576). { split; [apply Rinv_0_lt_compat; lra|rewrite <- (Rinv_inv 1048576); apply Rinv_le_contravar; lra]. }
  destruct (div_fin 53 1024 _ _ o r F1) as [F2 E2]; [lra| |].
  { rewrite E1. unfold Rdiv. rewrite Rmult_1_l. apply small_le64. rewrite Rabs_pos_eq by lra. apply Rle_trans with 1048576; [lra|apply IZR_le; lia]. }
  split; [exact F2|]. rewrite E2, E1. unfold Rdiv. rewrite Rmult_1_l. split; [apply rnd_ge0; [reflexivity|lra]|].
  pose proof (r64_error (/ B2R r)) as K. rewrite (Rabs_pos_eq (/ B2R r)) in K by lra. apply Rabs_le_inv in K. lra.
Qed.
Lemma short_half : forall rate (h : float64), short rate h -> short rate (dmul h (ddiv (dofZ 1) (dofZ 2))).
Proof.
  intros rate h [F [H0 H1]]. unfold A. cbn [dmul ddiv dofZ ieee]. destruct (ofZ_64 1 eq_refl) as [F1 E1]. destruct (ofZ_64 2 eq_refl) as [F2 E2].
  set (o := binary_normalize 53 1024 _ _ _ 1 _ _) in *. set (w := binary_normalize 53 1024 _ _ _ 2 _ _) in *. clearbody o w. cbn in E1, E2.
  destruct (div_fin 53 1024 _ _ o w F1) as [F3 E3]; [lra| |].
  { rewrite E1, E2. apply small_le64. rewrite Rabs_pos_eq by lra. apply Rle_trans with 1; [lra|apply IZR_le; lia]. }
  rewrite E1, E2 in E3. assert (E4 : r64 (1 / 2) = / 2).
  { replace (1 / 2) with (bpow radix2 (-1)) by (cbn; lra). rewrite rnd_id; [reflexivity|]. apply fmt_bpow; [reflexivity|lia]. }
  rewrite E4 in E3. set (q := Bdiv mode_NE o w) in *. clearbody q.
  destruct (mult_fin 53 1024 _ _ h q F F3) as [F5 E5].
  { apply small_bound with (x := h); [reflexivity|]. rewrite E3, !Rabs_pos_eq by lra. lra. }
  split; [exact F5|]. rewrite E5, E3. split; [apply rnd_ge0; [reflexivity|lra]|].
  apply Rle_trans with (B2R h); [|exact H1]. apply rnd_le_fmt; [reflexivity|apply fmt_B2R|lra].
Qed.
Lemma rate_facts : forall rate, rate_moderate rate -> 0 < / rate /\ eta <= / 1000000000000 * / rate.
Proof.
  intros rate [R1 R2]. assert (RI0 : 0 < / rate) by (apply Rinv_0_lt_compat; lra). split; [exact RI0|].
  assert (RI1 : bpow radix2 (-100) <= / rate) by (change (-100)%Z with (- (100))%Z; rewrite bpow_opp; apply Rinv_le_contravar; lra).
  assert (EE : eta = / 1125899906842624 * bpow radix2 (-100)).
  { unfold eta. change (-150)%Z with (-50 + -100)%Z. rewrite bpow_plus. f_equal. }
  rewrite EE. pose proof (bpow_gt_0 radix2 (-100)). lra.
Qed.
Lemma step_gap : forall rate N T (t h : float64), rate_moderate rate -> (0 <= N)%Z -> short rate h -> is_finite (Bplus mode_NE t h) = true ->
  Rabs (B2R (Bplus mode_NE t h)) <= T -> B2R t <= B2R (Bplus mode_NE t h) <= B2R t + float_period rate N T.
Proof.
  intros rate N T t h RM N0 [FH [H0 H1]] F B. destruct (plus_inv t h F) as (FT & _ & E). split.
  - rewrite E. apply rnd_ge_fmt; [reflexivity|apply fmt_B2R|lra].
  - pose proof (r64_error_out (B2R t + B2R h)) as K. rewrite <- E in K. destruct (rate_facts rate RM) as [RI EI]. apply Rabs_le_inv in K.
    assert (NN : 0 <= IZR N * / rate) by (apply Rmult_le_pos; [apply IZR_le; lia|lra]).
    unfold float_period, u53, Rdiv in *. replace ((1 + (IZR N + 2) * / 4194304) * / rate) with (/ rate + (IZR N * / rate) * / 4194304 + 2 * / rate * / 4194304) by ring.
    pose proof (Rabs_pos (B2R (Bplus mode_NE t h))) as X0. set (u := B2R (Bplus mode_NE t h)) in *. set (ri := / rate) in *. set (x := Rabs u) in *. clearbody u x ri. set (nr := IZR N * ri) in *. clearbody nr.
    clear - K B H1 RI EI NN X0. lra.
Qed.

Definition near_times (T : R) (tips : list TipState) : Prop :=
  Forall (fun t : TipState => is_finite (t_time t : float64) = true /\ Rabs (B2R (t_time t : float64)) <= T) tips.
Lemma end_gaps : forall rate N T p anchor stop, rate_moderate rate -> (0 <= N)%Z -> forall k s (delta : float64) sf out, short rate delta ->
  model_end_of_stroke p s anchor delta k stop = (sf, out) -> near_times T out ->
  gaps_within (float_period rate N T) (B2R (t_time s : float64)) (times_of out).
Proof.
  intros rate N T p anchor stop RM N0. induction k as [|k IH]; intros s delta sf out SH H F; cbn [model_end_of_stroke] in H.
  - injection H as <- <-. exact I.
  - set (cand := tip_update p s anchor (dadd (t_time s) delta)) in *.
    assert (TC : t_time cand = dadd (t_time s) delta) by reflexivity.
    assert (UP : is_finite (t_time cand : float64) = true /\ Rabs (B2R (t_time cand : float64)) <= T -> B2R (t_time s : float64) <= B2R (t_time cand : float64) <= B2R (t_time s : float64) + float_period rate N T).
    { rewrite TC. unfold A. cbn [dadd ieee]. intros [K1 K2]. apply step_gap; assumption. }
    clearbody cand. clear TC.
    destruct (fltb _ stop) in H; [|destruct (fltb _ f1) in H; [|destruct (fltb _ stop) in H]].
    + injection H as <- <-. exact I.
    + eapply IH; [|exact H|exact F]. apply short_half. exact SH.
    + injection H as <- <-. apply Forall_inv in F. split; [exact (UP F)|exact I].
    + destruct (model_end_of_stroke _ _ _ _ k _) as [sf' o] eqn:E. injection H as <- <-.
      cbn [times_of map gaps_within]. split; [exact (UP (Forall_inv F))|]. exact (IH _ _ _ _ SH E (Forall_inv_tail F)).
Qed.
Lemma extension_gaps : forall rate N T (h : float64), rate_moderate rate -> (0 <= N)%Z -> short rate h -> forall n e (t : float64), near_times T (cubic_prediction e t h n) ->
  gaps_within (float_period rate N T) (B2R t) (times_of (cubic_prediction e t h n)).
Proof.
  intros rate N T h RM N0 SH. induction n as [|n IH]; intros e t F; cbn [cubic_prediction] in *; [exact I|].
  pose proof (Forall_inv F) as [F1 F2]. apply Forall_inv_tail in F. cbn [t_time] in F1, F2. unfold A in F1, F2. cbn [dadd ieee] in F1, F2.
  cbn [times_of map t_time gaps_within]. split; [|apply IH; exact F]. apply step_gap; assumption.
Qed.
Lemma conn_gaps : forall rate N T (tip : TipState) e (h d : float64) n, rate_moderate rate -> (1 <= n <= N)%Z -> (N <= 16777216)%Z -> short rate h ->
  nonneg64 d -> (is_finite d = true -> B2R d = r64 (IZR n * B2R h)) ->
  is_finite (t_time tip : float64) = true -> Rabs (B2R (t_time tip : float64)) <= T ->
  near_times T (map (fun i => connector_tip tip e d n (Z.of_nat i)) (seq 1 (Z.to_nat n))) ->
  gaps_within (float_period rate N T) (B2R (t_time tip : float64)) (times_of (map (fun i => connector_tip tip e d n (Z.of_nat i)) (seq 1 (Z.to_nat n)))).
Proof.
  intros rate N T tip e h d n RM NN NM SH ND ED FT BT F. assert (NI : (1 <= n <= INT_MAX)%Z) by (unfold INT_MAX; lia).
  unfold times_of. rewrite map_map.
  set (f := fun j : nat => match j with O => B2R (t_time tip : float64) | S _ => B2R (t_time (connector_tip tip e d n (Z.of_nat j)) : float64) end).
  assert (E : map (fun x => B2R (t_time (connector_tip tip e d n (Z.of_nat x)) : float64)) (seq 1 (Z.to_nat n)) = map f (seq 1 (Z.to_nat n))).
  { apply map_ext_in. intros j IN. apply in_seq in IN. destruct j; [lia|reflexivity]. }
  rewrite E. apply (gaps_seq (float_period rate N T) f (Z.to_nat n) 0). intros i I.
  assert (NF : forall j, (1 <= j <= Z.to_nat n)%nat -> is_finite (t_time (connector_tip tip e d n (Z.of_nat j)) : float64) = true /\ Rabs (B2R (t_time (connector_tip tip e d n (Z.of_nat j)) : float64)) <= T).
  { intros j J. unfold near_times in F. rewrite Forall_map, Forall_forall in F. apply (F j). apply in_seq. lia. }
  assert (KT : forall j, (1 <= j <= Z.to_nat n)%nat -> is_finite d = true /\ 0 <= B2R d /\
    B2R (t_time (connector_tip tip e d n (Z.of_nat j)) : float64) = r64 (B2R (t_time tip : float64) + r64 (B2R d * B2R (ratio n j)))).
  { intros j J. apply conn_time; [exact ND|lia|exact NI|]. apply NF. exact J. }
  destruct (KT (S i) ltac:(lia)) as (FD & D0 & K1). specialize (ED FD).
  set (t0 := B2R (t_time tip : float64)) in *. set (dd := B2R d) in *.
  assert (K : forall j, (j <= Z.to_nat n)%nat -> Rabs (f j - (t0 + dd * (INR j / IZR n))) <= dd / 16777216 + u53 * T + 2 * eta).
  { assert (T0 : 0 <= T) by (eapply Rle_trans; [apply Rabs_pos|exact BT]). pose proof eta_pos as E0.
    intros j J. destruct j as [|j].
    - cbn [f INR]. unfold Rdiv at 1. rewrite Rmult_0_l, Rmult_0_r, Rplus_0_r, Rminus_eq_0, Rabs_R0. unfold u53. lra.
    - destruct (NF (S j) ltac:(lia)) as [_ BJ]. pose proof (proj2 (proj2 (KT (S j) ltac:(lia)))) as KJ.
      destruct (ratio_fin n (S j) ltac:(lia) NI) as ((_ & R0 & R1) & _). pose proof (ratio_error n (S j) ltac:(lia) ltac:(lia)) as RE.
      cbn [f]. set (u := B2R (t_time (connector_tip tip e d n (Z.of_nat (S j))) : float64)) in *. set (q := B2R (ratio n (S j))) in *.
      pose proof (r64_error_out (t0 + r64 (dd * q))) as E1. rewrite <- KJ in E1. pose proof (r64_error (dd * q)) as E2.
      assert (DQ : 0 <= dd * q <= dd) by nra. rewrite (Rabs_pos_eq (dd * q)) in E2 by lra.
      set (x := INR (S j) / IZR n) in *. apply Rabs_le_inv in E1, E2, RE.
      assert (Q1 : dd * (q - x) <= dd * / 33554432) by (apply Rmult_le_compat_l; lra).
      assert (Q2 : dd * (x - q) <= dd * / 33554432) by (apply Rmult_le_compat_l; lra).
      rewrite Rmult_minus_distr_l in Q1, Q2. unfold u53 in *. apply Rabs_le.
      set (y := dd * q) in *. set (z := dd * x) in *. set (w := r64 y) in *. set (au := Rabs u) in *. clearbody y z w au u.
      clear - E1 E2 Q1 Q2 BJ DQ D0. split; lra. }
  pose proof (K i ltac:(lia)) as KA. pose proof (K (S i) ltac:(lia)) as KB. apply Rabs_le_inv in KA, KB.
  split.
  - destruct (ratio_fin n (S i) ltac:(lia) NI) as ((_ & R0 & _) & _). destruct i as [|i]; unfold f; rewrite K1.
    + apply rnd_ge_fmt; [reflexivity|apply fmt_B2R|]. assert (0 <= r64 (dd * B2R (ratio n 1))) by (apply rnd_ge0; [reflexivity|apply Rmult_le_pos; assumption]). fold t0. lra.
    + rewrite (proj2 (proj2 (KT (S i) ltac:(lia)))). apply rnd_le; [reflexivity|]. apply Rplus_le_compat_l. apply rnd_le; [reflexivity|].
      apply Rmult_le_compat_l; [exact D0|]. apply ratio_mono; [lia|lia|exact NI].
  - destruct (rate_facts rate RM) as [RI EI]. destruct SH as [_ [H0 H1]].
    assert (N1 : 1 <= IZR n) by (apply IZR_le; lia). assert (N2 : IZR n <= IZR N) by (apply IZR_le; lia).
    assert (D1 : dd <= IZR n * B2R h * (1 + u53) + eta).
    { pose proof (r64_error (IZR n * B2R h)) as EE. rewrite <- ED in EE. assert (0 <= IZR n * B2R h) by (apply Rmult_le_pos; lra).
      rewrite (Rabs_pos_eq (IZR n * B2R h)) in EE by assumption. apply Rabs_le_inv in EE. lra. }
    set (hh := B2R h) in *. set (ni := / IZR n). assert (NI1 : IZR n * ni = 1) by (apply Rinv_r; lra).
    assert (NI0 : 0 < ni <= 1) by (split; [apply Rinv_0_lt_compat; lra|rewrite <- Rinv_1; apply Rinv_le_contravar; lra]).
    assert (D2 : dd * ni <= hh * (1 + u53) + eta).
    { apply Rle_trans with ((IZR n * hh * (1 + u53) + eta) * ni); [apply Rmult_le_compat_r; lra|].
      replace ((IZR n * hh * (1 + u53) + eta) * ni) with (IZR n * ni * hh * (1 + u53) + eta * ni) by ring. rewrite NI1. pose proof eta_pos.
      assert (eta * ni <= eta * 1) by (apply Rmult_le_compat_l; lra). lra. }
    assert (D3 : IZR n * hh <= IZR N * (/ rate * (1 + u53) + eta)) by (apply Rmult_le_compat; lra).
    assert (D4 : IZR N * eta <= IZR N * (/ 1000000000000 * / rate)) by (apply Rmult_le_compat_l; lra).
    unfold float_period, Rdiv in *. rewrite S_INR in KB. rewrite (Rmult_plus_distr_r (INR i) 1 (/ IZR n)), Rmult_1_l in KB.
    rewrite (Rmult_plus_distr_l dd (INR i * / IZR n)) in KB. fold ni in KA, KB.
    replace ((1 + (IZR N + 2) * / 4194304) * / rate) with (/ rate + (IZR N * / rate) * / 4194304 + 2 * / rate * / 4194304) by ring.
    replace (IZR N * (/ rate * (1 + u53) + eta)) with (IZR N * / rate * (1 + u53) + IZR N * eta) in D3 by ring.
    replace (IZR N * (/ 1000000000000 * / rate)) with (/ 1000000000000 * (IZR N * / rate)) in D4 by ring.
    assert (NR : / rate <= IZR N * / rate) by (rewrite <- (Rmult_1_l (/ rate)) at 1; apply Rmult_le_compat_r; lra).
    set (ri := / rate) in *. set (nr := IZR N * ri) in *. set (ne := IZR N * eta) in *. set (nh := IZR n * hh) in *. set (y := dd * (INR i * ni)) in *. set (g := dd * ni) in *.
    generalize dependent (f i). generalize dependent (f (S i)). intros b KB a KA. clearbody ri nr ne nh y g dd. unfold u53 in *.
    clear - KA KB D1 D2 D3 D4 RI EI NR H1 H0 D0. lra.
Qed.

Lemma kalman_gaps : forall rate T k (tip : TipState) tips, validate_sampling (k_sampling k) = OkStatus -> rate = B2R (sp_rate (k_sampling k) : float64) -> rate_moderate rate ->
  is_finite (t_time tip : float64) = true -> Rabs (B2R (t_time tip : float64)) <= T ->
  kpred_predict k tip = Ret tips -> near_times T tips -> (Z.of_nat (List.length tips) <= 16777216)%Z ->
  gaps_within (float_period rate (Z.of_nat (List.length tips)) T) (B2R (t_time tip : float64)) (times_of tips).
Proof.
  intros rate T k tip tips V ER RM FT BT H F LN. unfold kpred_predict in H. destruct (kpred_estimate k) as [e|]; [|apply ret_inj in H; subst tips; exact I].
  destruct (k_last k) as [q|]; [|apply ret_inj in H; subst tips; exact I]. cbv zeta in H.
  assert (FR : is_finite (sp_rate (k_sampling k) : float64) = true).
  { unfold validate_sampling in V. apply and_then_ok in V. destruct V as [VR _]. apply gt0_d_F in VR. apply VR. }
  assert (SH : short rate (ddiv (dofZ 1) (sp_rate (k_sampling k)))).
  { rewrite ER. apply short_rate; [exact FR|]. rewrite <- ER. exact RM. }
  pose proof (inverse_nonneg _ V) as N. set (h := ddiv (dofZ 1) (sp_rate (k_sampling k))) in *. clearbody h.
  bind_inv H. rename x into conn. unfold to_int in H. destruct (kpred_number_of_points k q e) as [n2|]; [|discriminate H]. apply ret_inj in H.
  unfold cubic_connector, to_int in E. destruct (connector_points tip e (k_params k) h) as [n|] eqn:CP; [|discriminate E]. cbv zeta in E. apply ret_inj in E.
  subst tips. set (L := Z.of_nat (List.length (conn ++ cubic_prediction e (match back conn with Some t => t_time t | None => t_time tip end) h (Z.to_nat n2)))) in *.
  assert (L0 : (Z.of_nat (List.length conn) <= L)%Z) by (unfold L; rewrite app_length; lia). clearbody L.
  apply Forall_app in F. destruct F as [F1 F2]. rewrite times_app. apply gaps_app. split.
  - destruct (Z_le_gt_dec n 0) as [NZ|NZ]; [replace (Z.to_nat n) with 0%nat in E by lia; subst conn; exact I|].
    assert (NI : (1 <= n <= INT_MAX)%Z) by (split; [lia|exact (to_int_max _ _ CP)]).
    assert (NL : (n <= L)%Z) by (subst conn; rewrite map_length, seq_length in L0; lia).
    subst conn. apply (conn_gaps rate L T tip e h); try assumption; [lia|apply dur_nonneg; assumption|].
    unfold A. cbn [dmul dofZ ieee]. intros FD. destruct (mult_inv _ _ FD) as (_ & _ & EM). rewrite EM, (proj2 (ofZ_64 n ltac:(unfold INT_MAX in *; lia))). reflexivity.
  - rewrite <- back_last. apply extension_gaps; try assumption. lia.
Qed.
Lemma predictor_gaps : forall rate T p o pr (tip : TipState) tips, validate_params p = OkStatus -> o = Some pr -> reset_pred o = make_predictor p ->
  rate = B2R (sp_rate (p_sampling p) : float64) -> rate_moderate rate ->
  is_finite (t_time tip : float64) = true -> Rabs (B2R (t_time tip : float64)) <= T ->
  pred_construct pr tip = Ret tips -> near_times T tips -> (Z.of_nat (List.length tips) <= 16777216)%Z ->
  gaps_within (float_period rate (Z.of_nat (List.length tips)) T) (B2R (t_time tip : float64)) (times_of tips).
Proof.
  intros rate T p o pr tip tips V -> RP ER RM FT BT PC F LN. destruct (validate_params_parts p V) as (_ & _ & VS & _).
  destruct pr as [pp sp [pos|]|k]; cbn [pred_construct] in PC.
  - destruct (model_end_of_stroke _ _ _ _ _ _) as [sf o] eqn:ME in PC. cbn [snd] in PC. apply ret_inj in PC. subst o.
    assert (ES : sp = p_sampling p).
    { cbn [reset_pred option_map pred_reset] in RP. unfold make_predictor in RP. destruct (p_prediction p); congruence. }
    subst sp. refine (end_gaps rate _ T _ _ _ RM _ _ _ _ _ _ _ ME F); [lia|].
    rewrite ER. apply short_rate; [|rewrite <- ER; exact RM].
    unfold validate_sampling in VS. apply and_then_ok in VS. destruct VS as [VR _]. apply gt0_d_F in VR. apply VR.
  - apply ret_inj in PC. subst tips. exact I.
  - assert (ES : k_sampling k = p_sampling p).
    { cbn [reset_pred option_map pred_reset] in RP. unfold make_predictor in RP. destruct (p_prediction p) as [|kp|]; try discriminate RP. apply some_inj in RP.
      apply (f_equal (fun q => match q with PKal k => k_sampling k | _ => p_sampling p end)) in RP. exact RP. }
    apply (kalman_gaps rate T k); try assumption; rewrite ES; assumption.
Qed.

Lemma end_tip_gap : forall rate N T p anchor stop, rate_moderate rate -> (0 <= N)%Z -> 0 <= T -> forall k s (delta : float64) sf out, short rate delta ->
  is_finite (t_time s : float64) = true -> model_end_of_stroke p s anchor delta k stop = (sf, out) -> out = [] -> near_times T [sf] ->
  gaps_within (float_period rate N T) (B2R (t_time s : float64)) (times_of [sf]).
Proof.
  intros rate N T p anchor stop RM N0 T0. induction k as [|k IH]; intros s delta sf out SH FS H EO F; cbn [model_end_of_stroke] in H.
  - injection H as <- <-. cbn [times_of map gaps_within]. split; [|exact I]. split; [apply Rle_refl|].
    assert (0 <= float_period rate N T); [|lra]. destruct (rate_facts rate RM) as [RI _]. unfold float_period, Rdiv.
    assert (0 <= IZR N) by (apply IZR_le; lia). assert (0 <= (1 + (IZR N + 2) * / 4194304) * / rate) by (apply Rmult_le_pos; lra). lra.
  - set (cand := tip_update p s anchor (dadd (t_time s) delta)) in *.
    assert (TC : t_time cand = dadd (t_time s) delta) by reflexivity.
    assert (UP : is_finite (t_time cand : float64) = true /\ Rabs (B2R (t_time cand : float64)) <= T -> B2R (t_time s : float64) <= B2R (t_time cand : float64) <= B2R (t_time s : float64) + float_period rate N T).
    { rewrite TC. unfold A. cbn [dadd ieee]. intros [K1 K2]. apply step_gap; assumption. }
    clearbody cand. clear TC.
    destruct (fltb _ stop) in H; [|destruct (fltb _ f1) in H; [|destruct (fltb _ stop) in H]].
    + injection H as <- <-. apply Forall_inv in F. split; [exact (UP F)|exact I].
    + eapply IH; [|exact FS|exact H|exact EO|exact F]. apply short_half. exact SH.
    + injection H as <- <-. discriminate EO.
    + destruct (model_end_of_stroke _ _ _ _ k _) as [sf' o] eqn:E. injection H as <- <-. discriminate EO.
Qed.
End FPred.

(** ** Theorems *)
(** The times of a prediction, of either kind, continue those of the stroke: together
    they never decrease (as long as no time overflows). *)
Theorem C23_float_predict_times_never_decrease : forall acosf (A := ieee acosf) fuel hist s (p : StrokeModelParams (A := ieee acosf)) es rs out,
  after_stroke fuel hist s es -> ps_params s = Some p -> prediction_on p = true ->
  sound_times p (List.concat (map snd es)) -> Sorted exact_gap (map fst es) ->
  answers fuel hist [CPredict rs] = Ret [RResults OkStatus out] ->
  Forall (fun r : Result (A := ieee acosf) => is_finite (r_time r : float64) = true) out ->
  Sorted Rle (map result_R (List.concat (map snd es) ++ out)).
Proof.
  intros acosf A fuel hist s p es rs out AS P ON LO GAP AN FO. subst A.
  destruct (in_time_state acosf fuel hist s es AS) as (m0 & rs0 & R0 & _ & _ & _ & OT).
  destruct (remembers_state acosf fuel hist s es AS) as (m1 & rs1 & R1 & _ & _ & _ & RM). rewrite R0 in R1. apply ret_inj in R1. injection R1 as <- <-.
  assert (AF : after fuel hist s) by (destruct AS as (ma & rsa & Ra & Pa & _); exists ma, rsa; auto).
  destruct (accepted_predict _ _ _ _ _ _ AF AN) as (m & r0 & m' & R & (T1 & T2 & _) & G & C & U).
  rewrite R0 in R. apply ret_inj in R. injection R as -> ->.
  destruct (prd_ok fuel m m' out U) as (p' & pr & lst & tips & lm & MQ & MPR & ML & PC & MS & _).
  assert (p' = p) by congruence. subst p'. pose proof (g_valid _ G p MQ) as V. destruct (g_on _ G p MQ ON) as [GO _].
  destruct (OT p lst MQ ML) as (_ & J). destruct (J LO GAP) as (J1 & J2 & J3 & J4 & J5 & J6 & J7). cbn [core_of co_tip co_last] in *.
  destruct (C p MQ ltac:(left; congruence)) as (C1 & C2 & C3 & C4).
  apply (results_times acosf) in MS.
  2:{ rewrite C4. destruct (lp_enabled (pp_loop (p_position p))) eqn:L; [right|left; reflexivity]. split; [exact (RM p lst MQ ML L)|exact FO]. }
  pose proof (same_times_back _ _ _ MS FO) as FT. destruct (same_times _ _ _ MS FT) as [_ M2].
  pose proof (predictor_sorted acosf p _ pr _ tips V MPR GO J1 PC FT) as S2.
  rewrite map_app. unfold result_R at 2. rewrite M2, map_map. change (map result_R (List.concat (map snd es))) with (result_times acosf es).
  apply StronglySorted_Sorted. apply Sorted_StronglySorted in S2; [|intros x y z; apply Rle_trans]. inversion S2 as [|? ? S3 S4]; subst.
  eapply sorted_app; [exact J3|exact S3| |exact S4]. rewrite J4. apply sorted_last. exact J3.
Qed.

(** *** Ordinary strokes, mitigation on or off *)
Lemma finite_sound : forall acosf (p : StrokeModelParams (A := ieee acosf)) (out : list (Result (A := ieee acosf))), Forall all_finite out -> sound_times p out.
Proof. intros acosf p out F. right. eapply Forall_impl; [|exact F]. intros r (_ & _ & _ & K & _). exact K. Qed.
Lemma tick_exact : forall acosf (l : list (Input (A := ieee acosf))), Sorted tick_gap l -> Sorted exact_gap l.
Proof. intros acosf l S. induction S as [|a l S IH H]; constructor; [exact IH|]. destruct H; constructor. apply H. Qed.
Lemma steady_rate : forall acosf (p : StrokeModelParams (A := ieee acosf)), steady_params p ->
  rate_moderate (B2R (sp_rate (p_sampling p) : float64)) /\ (sp_max_outputs (p_sampling p) <= 16777216)%Z.
Proof.
  intros acosf p (SD & MO & _). pose proof (sd_rate _ _ SD). split; [|lia]. unfold rate_moderate.
  assert (K := bpow_le radix2 14 100 ltac:(lia)). assert (K2 : bpow radix2 14 = 16384%R) by (cbn; lra). rewrite K2 in K. lra.
Qed.
Lemma after_seen_after : forall {A : Arith} fuel hist s es seen, after_seen fuel hist s es seen -> after_stroke fuel hist s es.
Proof. intros A fuel hist s es seen (ma & rsa & A1 & A2 & A3 & _ & A4). exists ma, rsa. auto. Qed.
Lemma moderate_times : forall acosf (l : list (Input (A := ieee acosf))), Forall moderate_input l -> Forall (fun i => Rabs (time_R i) <= 2147483648) l.
Proof. intros acosf l F. eapply Forall_impl; [|exact F]. intros i (_ & (_ & B) & _). exact B. Qed.
Lemma accepted_seen : forall {A : Arith} fuel hist s p es seen, after_seen fuel hist s es seen -> ps_params s = Some p -> in_stroke s = true ->
  forall i, In i (map fst es) -> In i seen.
Proof.
  intros A fuel hist s p es seen AS PP IS i IN. destruct (remembered_state _ _ _ _ _ AS) as (m & rs & R & (T1 & T2 & _) & _ & _ & RM).
  unfold in_stroke in IS. rewrite T2 in IS. destruct (m_last m) as [last|] eqn:ML; [|discriminate IS]. rewrite T1 in PP.
  destruct (RM p last PP eq_refl) as (cs & ws & [H1 H2 H3 H4 H5 H6]).
  assert (K : exists w, In (i, w) (combine (map fst es) ws)).
  { clear - IN H3. revert ws H3. induction es as [|e es IH]; intros [|w ws] H; try discriminate H; [destruct IN|]. cbn in *.
    destruct IN as [<-|IN]; [exists w; left; reflexivity|]. destruct (IH IN ws ltac:(lia)) as (w' & K). exists w'. right. exact K. }
  destruct K as (w & K). apply (subseq_in _ _ _ H4) in K. apply in_combine_l in K. exact K.
Qed.

Section Ordinary.
Variable acosf : float32 -> float32.
Let A := ieee acosf.
Local Existing Instance A.
Variables (fuel : nat) (hist : list call) (s : pstate) (p : StrokeModelParams) (l : Input) (es : list entry) (seen : list Input).
Hypotheses (AS : after_seen fuel hist s es seen) (PP : ps_params s = Some p) (PL : ps_last s = Some l)
  (SP : @steady_params acosf p) (MI : @moderate_inputs acosf p (map fst es) seen)
  (CT : (List.length (List.concat (map snd es)) <= Z.to_nat 1048576)%nat).

Lemma ord_in : in_stroke s = true.
Proof. unfold in_stroke. rewrite PL. reflexivity. Qed.
Lemma ord_sound : @sound_times acosf p (List.concat (map snd es)).
Proof. apply finite_sound. exact (C49_float_finite_results acosf fuel hist s p es seen AS ord_in PP SP MI CT). Qed.
Lemma ord_rate : exists d out0 rest k, es = (d, out0) :: rest /\ map (@result_R acosf) (List.concat (map snd es)) = time_R d :: k /\
    gaps_within (float_period (B2R (sp_rate (p_sampling p) : float64)) (sp_max_outputs (p_sampling p)) 2147483648) (@time_R acosf d) k /\
    last k (@time_R acosf d) = @time_R acosf l.
Proof.
  destruct (steady_rate acosf p SP) as [RM MO]. destruct MI as (M1 & M2 & M3 & M4).
  apply (C22_float_stroke_rate acosf fuel hist s p l es 2147483648 (after_seen_after _ _ _ _ _ AS) PP PL ord_sound M3); try assumption.
  apply moderate_times. apply Forall_forall. intros i IN. apply (proj1 (Forall_forall _ _) M1). exact (accepted_seen fuel hist s p es seen AS PP ord_in i IN).
Qed.
Lemma ord_after : forall out, Sorted Rle (map (@result_R acosf) (List.concat (map snd es) ++ out)) ->
  Forall (fun r => @time_R acosf l <= @result_R acosf r) out.
Proof.
  intros out S. destruct ord_rate as (d & out0 & rest & k & _ & E & _ & L). rewrite map_app in S. unfold A in *. rewrite E in S.
  apply Sorted_StronglySorted in S; [|intros x y z; apply Rle_trans].
  destruct (exists_last (l := time_R d :: k) ltac:(discriminate)) as (a & b & EB).
  assert (b = time_R l) by (rewrite <- L; rewrite <- (last_cons' k (time_R d) 0), EB, last_last; reflexivity). subst b.
  rewrite EB, <- app_assoc in S. clear - S. induction a as [|x a IH]; cbn [app] in S.
  - inversion S as [|? ? _ F]; subst. rewrite Forall_map in F. exact F.
  - inversion S; subst. auto.
Qed.
End Ordinary.

(** Predictions, of either kind, start at the time of the last accepted input and are as
    closely spaced as the results, up to rounding ([T] bounds all times). *)
Theorem C22_float_predict_spacing : forall acosf (A := ieee acosf) fuel hist s (p : StrokeModelParams (A := ieee acosf)) (i0 : Input (A := ieee acosf)) es T rs out,
  after_stroke fuel hist s es -> ps_params s = Some p -> ps_last s = Some i0 -> prediction_on p = true ->
  sound_times p (List.concat (map snd es)) -> Sorted tick_gap (map fst es) ->
  Forall (fun i => Rabs (time_R i) <= T) (map fst es) ->
  rate_moderate (B2R (sp_rate (p_sampling p) : float64)) -> (sp_max_outputs (p_sampling p) <= 16777216)%Z ->
  answers fuel hist [CPredict rs] = Ret [RResults OkStatus out] ->
  Forall (fun r : Result (A := ieee acosf) => is_finite (r_time r : float64) = true /\ Rabs (result_R r) <= T) out ->
  (Z.of_nat (List.length out) <= 16777216)%Z ->
  gaps_within (float_period (B2R (sp_rate (p_sampling p) : float64)) (Z.of_nat (List.length out)) T) (time_R i0) (map result_R out).
Proof.
  intros acosf A fuel hist s p i0 es T rs out AS P PL ON LO GAP BT RM MO AN FO LN. subst A.
  destruct (C22_float_stroke_rate acosf fuel hist s p i0 es T AS P PL LO GAP BT RM MO) as (d & out0 & rest & k & E1 & E2 & _ & E4).
  destruct (in_time_state acosf fuel hist s es AS) as (m0 & rs0 & R0 & _ & _ & _ & OT).
  destruct (remembers_state acosf fuel hist s es AS) as (m1 & rs1 & R1 & _ & _ & _ & RE). rewrite R0 in R1. apply ret_inj in R1. injection R1 as <- <-.
  assert (AF : after fuel hist s) by (destruct AS as (ma & rsa & Ra & Pa & _); exists ma, rsa; auto).
  destruct (accepted_predict _ _ _ _ _ _ AF AN) as (m & r0 & m' & R & (T1 & T2 & _) & G & C & U).
  rewrite R0 in R. apply ret_inj in R. injection R as -> ->.
  destruct (prd_ok fuel m m' out U) as (p' & pr & lst & tips & lm & MQ & MPR & ML & PC & MS & _).
  assert (p' = p) by congruence. subst p'. pose proof (g_valid _ G p MQ) as V. destruct (g_on _ G p MQ ON) as [GO _].
  destruct (OT p lst MQ ML) as ((_ & _ & l0 & JL) & J). destruct (J LO (tick_exact _ _ GAP)) as (J1 & J2 & J3 & J4 & J5 & J6 & J7). cbn [core_of co_tip co_last] in *.
  destruct (C p MQ ltac:(left; congruence)) as (C1 & C2 & C3 & C4). pose proof (model_stylus_length _ _ _ _ _ _ _ _ MS) as LT.
  assert (FF : Forall (fun r : Result (A := ieee acosf) => is_finite (r_time r : float64) = true) out) by (eapply Forall_impl; [|exact FO]; intros r K; apply K).
  apply (results_times acosf) in MS.
  2:{ rewrite C4. destruct (lp_enabled (pp_loop (p_position p))) eqn:L; [right|left; reflexivity]. split; [exact (RE p lst MQ ML L)|exact FF]. }
  pose proof (same_times_back _ _ _ MS FF) as FT. destruct (same_times _ _ _ MS FT) as [_ M2].
  assert (NT : near_times acosf T tips).
  { clear - MS FO FT. induction MS as [|r t out tips K MS IH]; [constructor|]. constructor; [|apply IH; [exact (Forall_inv_tail FO)|exact (Forall_inv_tail FT)]].
    apply Forall_inv in FT, FO. destruct K as [K _]. destruct (K FT) as [_ K2]. split; [exact FT|]. rewrite <- K2. apply FO. }
  assert (TE : B2R (t_time (pm_state (m_pos m)) : float64) = time_R i0).
  { rewrite J4. change (result_times acosf es) with (map result_R (List.concat (map snd es))). rewrite E2, last_cons'. exact E4. }
  assert (BI : Rabs (B2R (t_time (pm_state (m_pos m)) : float64)) <= T).
  { rewrite TE. assert (EL : i0 = li_input lst) by (rewrite ML, PL in T2; apply some_inj in T2; exact T2). rewrite EL.
    refine (proj1 (Forall_forall _ _) BT (li_input lst) _). rewrite JL. apply in_or_app. right. left. reflexivity. }
  unfold result_R at 1. rewrite M2, map_map, LT, <- TE. rewrite LT in LN. exact (predictor_gaps acosf _ T p _ pr _ tips V MPR GO eq_refl RM J1 BI PC NT LN).
Qed.

(** All that an Up produces: the way to the input and the modeled end of the stroke. *)
Theorem C22_float_up_spacing : forall acosf (A := ieee acosf) fuel hist s (p : StrokeModelParams (A := ieee acosf)) (l i : Input (A := ieee acosf)) es T rs out,
  after_stroke fuel hist s es -> ps_params s = Some p -> ps_last s = Some l -> i_event i = EUp ->
  sound_times p (List.concat (map snd es)) -> Sorted tick_gap (map fst es ++ [i]) ->
  Forall (fun i => Rabs (time_R i) <= T) (map fst es ++ [i]) ->
  rate_moderate (B2R (sp_rate (p_sampling p) : float64)) -> (sp_max_outputs (p_sampling p) <= 16777216)%Z ->
  answers fuel hist [CUpdate i rs] = Ret [RResults OkStatus (rs ++ out)] ->
  Forall (fun r : Result (A := ieee acosf) => is_finite (r_time r : float64) = true /\ Rabs (result_R r) <= T) out ->
  gaps_within (float_period (B2R (sp_rate (p_sampling p) : float64)) (sp_max_outputs (p_sampling p)) T) (time_R l) (map result_R out).
Proof.
  intros acosf A fuel hist s p l i es T rs out AS P PL EV LO GAP BT RM MO AN FO. subst A.
  destruct (in_time_state acosf fuel hist s es AS) as (m0 & rs0 & R0 & _ & _ & _ & OT).
  assert (AF : after fuel hist s) by (destruct AS as (ma & rsa & Ra & Pa & _); exists ma, rsa; auto).
  destruct (accepted_update _ _ _ _ _ _ _ AF AN) as (m & r0 & m' & o & R & (T1 & T2 & _) & G & C & K & U & _).
  rewrite R0 in R. apply ret_inj in R. injection R as -> ->. apply app_inv_head in K. subst o.
  destruct (upd_up _ _ _ _ _ U EV) as (p0 & lst & n & tip1 & tips1 & tip2 & tips2 & sm & lm & MP & VI & ML & DL & NS & UA & ME & SU & MS & _).
  assert (p0 = p) by congruence. subst p0. assert (EL : l = li_input lst) by (rewrite ML, PL in T2; apply some_inj in T2; exact T2).
  destruct (OT p lst MP ML) as ((JV & _ & l0 & JL) & J). cbn [core_of co_last] in JL.
  assert (GAP2 : Sorted (@tick_gap acosf) ((l0 ++ [li_input lst]) ++ [i])) by (rewrite <- JL; exact GAP).
  apply sorted_init in GAP2. destruct GAP2 as [G1 [(g & FG & EG) TA]]. rewrite <- JL in G1.
  apply Forall_app in BT. destruct BT as [BT BI]. apply Forall_inv in BI.
  assert (BL : Rabs (@time_R acosf (li_input lst)) <= T).
  { refine (proj1 (Forall_forall _ _) BT (li_input lst) _). rewrite JL. apply in_or_app. right. left. reflexivity. }
  destruct (C22_float_stroke_rate acosf fuel hist s p l es T AS P PL LO G1 BT RM MO) as (d & out0 & rest & k & _ & E2 & _ & E4). subst l.
  destruct (J LO (tick_exact _ _ G1)) as (J1 & J2 & J3 & J4 & J5 & J6 & J7). cbn [core_of co_tip co_last] in *.
  destruct (last_valid_run fuel hist _ _ _ last_valid0 R0) as [LV _]. specialize (LV _ ML). pose proof (g_valid _ G p MP) as V.
  apply input_F in VI, LV. destruct VI as (_ & _ & F1), LV as (_ & _ & F0).
  cbn [dltb ieee] in DL. apply (ltb_false_R 53 1024) in DL; [|exact F1|exact F0].
  destruct (path_timed acosf _ _ _ _ _ _ _ _ _ UA F0 F1 DL (ex_intro _ g (conj FG EG))) as ((K1 & K2 & K3) & K4 & K5).
  destruct (steps_count acosf _ _ _ _ _ g NS V ltac:(unfold INT_MAX; lia) F0 F1 DL FG EG) as (N1 & RR0 & N2 & N3).
  rewrite EG in N2.
  pose proof (path_gaps acosf _ _ _ _ _ _ _ _ _ _ _ T UA (conj N1 MO) F0 F1 DL (ex_intro _ g (conj FG EG)) BL BI RM N2) as PG.
  destruct (C p MP ltac:(left; congruence)) as (C1 & C2 & C3 & C4).
  assert (FF : Forall (fun r : Result (A := ieee acosf) => is_finite (r_time r : float64) = true) out) by (eapply Forall_impl; [|exact FO]; intros r KK; apply KK).
  apply (results_timed acosf _ _ _ _ _ _ _ _ _ _ _ _ _ V C3 C4 SU (or_intror FF)) in MS.
  pose proof (same_times_back _ _ _ MS FF) as FT. destruct (same_times _ _ _ MS FT) as [_ M2].
  set (all := match tips1 ++ tips2 with [] => [tip2] | l => l end) in *.
  assert (NT : near_times acosf T all).
  { clear - MS FO FT. induction MS as [|r t out tips K MS IH]; [constructor|]. constructor; [|apply IH; [exact (Forall_inv_tail FO)|exact (Forall_inv_tail FT)]].
    apply Forall_inv in FT, FO. destruct K as [K _]. destruct (K FT) as [_ K2]. split; [exact FT|]. rewrite <- K2. apply FO. }
  unfold result_R at 1. rewrite M2.
  assert (TE : B2R (t_time (pm_state (m_pos m)) : float64) = time_R (li_input lst)).
  { rewrite J4. change (result_times acosf es) with (map result_R (List.concat (map snd es))). rewrite E2, last_cons'. exact E4. }
  assert (FT1 : is_finite (t_time tip1 : float64) = true).
  { rewrite K4. clear - J1 K1. destruct tips1 as [|t tips]; [exact J1|]. revert K1. generalize (pm_state (m_pos m)). clear.
    revert t. induction tips as [|t' tips IH]; intros t d K; inversion K; subst; [assumption|]. rewrite last_cons'.
    apply IH. assumption. }
  assert (SH : short (B2R (sp_rate (p_sampling p) : float64)) (ddiv (Arith := ieee acosf) (dofZ (Arith := ieee acosf) 1) (sp_rate (p_sampling p)))).
  { apply short_rate; [|exact RM]. destruct (validate_params_parts p V) as (_ & _ & VS & _). unfold validate_sampling in VS. apply and_then_ok in VS. destruct VS as [VR _]. apply gt0_d_F in VR. apply VR. }
  assert (N0 : (0 <= sp_max_outputs (p_sampling p))%Z).
  { destruct (validate_params_parts p V) as (_ & _ & VS & _). unfold validate_sampling in VS.
    apply and_then_ok in VS. destruct VS as [_ VS]. apply and_then_ok in VS. destruct VS as [_ VS]. apply and_then_ok in VS. destruct VS as [_ VS].
    destruct (Z.ltb _ _) in VS; [discriminate VS|]. apply and_then_ok in VS. destruct VS as [VS _]. unfold validate_gt0_i in VS.
    destruct (Z.leb_spec (sp_max_outputs (p_sampling p)) 0); [discriminate VS|lia]. }
  assert (T0 : 0 <= T) by (eapply Rle_trans; [apply Rabs_pos|exact BL]).
  rewrite map_map in PG. rewrite map_map. subst all. destruct (tips1 ++ tips2) as [|t q] eqn:EQ.
  - apply app_eq_nil in EQ. destruct EQ as [-> ->]. cbn [last] in K4. change (time_R (li_input lst)) with (@time_R acosf (li_input lst)). rewrite <- TE.
    assert (ET : t_time tip1 = t_time (pm_state (m_pos m))) by (rewrite K4; reflexivity). rewrite <- ET.
    exact (end_tip_gap acosf _ _ T _ _ _ RM N0 T0 _ _ _ _ _ SH FT1 ME eq_refl NT).
  - rewrite <- EQ in *. rewrite map_app. apply gaps_app. split; [exact PG|]. apply Forall_app in NT. destruct NT as [_ NT].
    assert (ET : last (map (fun t : TipState (A := ieee acosf) => B2R (t_time t : float64)) tips1) (time_R (li_input lst)) = B2R (t_time tip1 : float64)).
    { rewrite K4. destruct tips1 as [|t1 tips1]; [symmetry; exact TE|]. apply (last_map' (fun t : TipState (A := ieee acosf) => B2R (t_time t : float64))). }
    rewrite ET. exact (end_gaps acosf _ _ T _ _ _ RM N0 _ _ _ _ _ SH ME NT).
Qed.

(** No hypothesis on mitigation: the times of an ordinary stroke (C49) never decrease,
    from the time of the Down to exactly that of the last accepted input, and are at
    most one sampling period (and a little more) apart. *)
Theorem C23_ordinary_times_never_decrease : forall acosf (A := ieee acosf) fuel hist s (p : StrokeModelParams (A := ieee acosf)) (l : Input (A := ieee acosf)) es (seen : list (Input (A := ieee acosf))),
  after_seen fuel hist s es seen -> ps_params s = Some p -> ps_last s = Some l -> steady_params p -> moderate_inputs p (map fst es) seen ->
  (List.length (List.concat (map snd es)) <= Z.to_nat 1048576)%nat ->
  exists d out0 rest, es = (d, out0) :: rest /\
    Sorted Rle (map result_R (List.concat (map snd es))) /\
    hd_error (map result_R (List.concat (map snd es))) = Some (time_R d) /\
    last (map result_R (List.concat (map snd es))) 0 = time_R l.
Proof.
  intros acosf A fuel hist s p l es seen AS PP PL SP MI CT. subst A.
  destruct (ord_rate acosf fuel hist s p l es seen AS PP PL SP MI CT) as (d & out0 & rest & k & E1 & E2 & E3 & E4).
  exists d, out0, rest. split; [exact E1|]. rewrite E2. split; [apply (gaps_sorted _ _ _ E3)|]. split; [reflexivity|]. rewrite last_cons'. exact E4.
Qed.
Theorem C22_ordinary_stroke_rate : forall acosf (A := ieee acosf) fuel hist s (p : StrokeModelParams (A := ieee acosf)) (l : Input (A := ieee acosf)) es (seen : list (Input (A := ieee acosf))),
  after_seen fuel hist s es seen -> ps_params s = Some p -> ps_last s = Some l -> steady_params p -> moderate_inputs p (map fst es) seen ->
  (List.length (List.concat (map snd es)) <= Z.to_nat 1048576)%nat ->
  exists d out0 rest k, es = (d, out0) :: rest /\ map result_R (List.concat (map snd es)) = time_R d :: k /\
    gaps_within (float_period (B2R (sp_rate (p_sampling p) : float64)) (sp_max_outputs (p_sampling p)) 2147483648) (time_R d) k /\
    last k (time_R d) = time_R l.
Proof.
  intros acosf A fuel hist s p l es seen AS PP PL SP MI CT. subst A. exact (ord_rate acosf fuel hist s p l es seen AS PP PL SP MI CT).
Qed.
(** The Up that ends it. *)
Theorem C23_ordinary_up_times_never_decrease : forall acosf (A := ieee acosf) fuel hist s (p : StrokeModelParams (A := ieee acosf)) (l i : Input (A := ieee acosf)) es (seen : list (Input (A := ieee acosf))) rs out,
  after_seen fuel hist s es seen -> ps_params s = Some p -> ps_last s = Some l -> i_event i = EUp -> steady_params p ->
  moderate_input i -> moderate_inputs p (map fst es) seen -> moderate_inputs p (map fst es ++ [i]) (seen ++ [i]) ->
  (List.length (List.concat (map snd es)) + List.length out <= Z.to_nat 1048576)%nat ->
  answers fuel hist [CUpdate i rs] = Ret [RResults OkStatus (rs ++ out)] ->
  Sorted Rle (map result_R (List.concat (map snd es) ++ out)) /\ Forall (fun r => time_R l <= result_R r) out.
Proof.
  intros acosf A fuel hist s p l i es seen rs out AS PP PL EV SP MO MI MI2 CT AN. subst A.
  assert (CT1 : (List.length (List.concat (map snd es)) <= Z.to_nat 1048576)%nat) by lia.
  pose proof (C49_float_finite_update acosf fuel hist s p es seen i rs out AS PP SP MO (fun _ => conj MI2 CT) AN) as F.
  assert (S : Sorted Rle (map result_R (List.concat (map snd es) ++ out))).
  { apply (C23_float_up_times_never_decrease acosf fuel hist s p l i rs out es (after_seen_after _ _ _ _ _ AS) PP PL EV); try assumption.
    - exact (ord_sound acosf fuel hist s p l es seen AS PP PL SP MI CT1).
    - apply tick_exact. apply MI2.
    - eapply Forall_impl; [|exact F]. intros r (_ & _ & _ & K & _). exact K. }
  split; [exact S|]. exact (ord_after acosf fuel hist s p l es seen AS PP PL SP MI CT1 out S).
Qed.
(** A prediction to the end of the stroke; a Kalman prediction. *)
Theorem C23_ordinary_predict_times_never_decrease : forall acosf (A := ieee acosf) fuel hist s (p : StrokeModelParams (A := ieee acosf)) (l : Input (A := ieee acosf)) es (seen : list (Input (A := ieee acosf))) rs out,
  after_seen fuel hist s es seen -> ps_params s = Some p -> ps_last s = Some l -> p_prediction p = PredStrokeEnd -> steady_params p -> moderate_inputs p (map fst es) seen ->
  (List.length (List.concat (map snd es)) <= Z.to_nat 1048576)%nat ->
  answers fuel hist [CPredict rs] = Ret [RResults OkStatus out] ->
  Sorted Rle (map result_R (List.concat (map snd es) ++ out)) /\ Forall (fun r => time_R l <= result_R r) out.
Proof.
  intros acosf A fuel hist s p l es seen rs out AS PP PL PE SP MI CT AN. subst A.
  pose proof (C49_float_finite_prediction acosf fuel hist s p es seen rs out AS PP PE SP MI CT AN) as F.
  assert (S : Sorted Rle (map result_R (List.concat (map snd es) ++ out))).
  { apply (C23_float_predict_times_never_decrease acosf fuel hist s p es rs out (after_seen_after _ _ _ _ _ AS) PP); try assumption.
    - unfold prediction_on. rewrite PE. reflexivity.
    - exact (ord_sound acosf fuel hist s p l es seen AS PP PL SP MI CT).
    - apply tick_exact. apply MI.
    - eapply Forall_impl; [|exact F]. intros r (_ & _ & _ & K & _). exact K. }
  split; [exact S|]. exact (ord_after acosf fuel hist s p l es seen AS PP PL SP MI CT out S).
Qed.
Theorem C23_ordinary_kalman_times_never_decrease : forall acosf (A := ieee acosf) fuel hist s (p : StrokeModelParams (A := ieee acosf)) (kp : KalmanParams (A := ieee acosf)) (l : Input (A := ieee acosf)) es (seen : list (Input (A := ieee acosf))) rs out,
  after_seen fuel hist s es seen -> ps_params s = Some p -> ps_last s = Some l -> p_prediction p = PredKalman kp -> steady_params p -> moderate_kalman kp -> moderate_inputs p (map fst es) seen ->
  spread_out (most_recent (kp_max_times kp) (map (fun e => i_time (fst e)) es)) ->
  (List.length (List.concat (map snd es)) <= Z.to_nat 1048576)%nat -> (List.length out <= Z.to_nat 1048576)%nat ->
  answers fuel hist [CPredict rs] = Ret [RResults OkStatus out] ->
  Sorted Rle (map result_R (List.concat (map snd es) ++ out)) /\ Forall (fun r => time_R l <= result_R r) out.
Proof.
  intros acosf A fuel hist s p kp l es seen rs out AS PP PL PE SP MK MI SO CT LO AN. subst A.
  pose proof (C49_float_finite_kalman_prediction acosf fuel hist s p kp es seen rs out AS PP PE SP MK MI SO CT LO AN) as F.
  assert (S : Sorted Rle (map result_R (List.concat (map snd es) ++ out))).
  { apply (C23_float_predict_times_never_decrease acosf fuel hist s p es rs out (after_seen_after _ _ _ _ _ AS) PP); try assumption.
    - unfold prediction_on. rewrite PE. reflexivity.
    - exact (ord_sound acosf fuel hist s p l es seen AS PP PL SP MI CT).
    - apply tick_exact. apply MI.
    - eapply Forall_impl; [|exact F]. intros r (_ & _ & _ & K & _). exact K. }
  split; [exact S|]. exact (ord_after acosf fuel hist s p l es seen AS PP PL SP MI CT out S).
Qed.
