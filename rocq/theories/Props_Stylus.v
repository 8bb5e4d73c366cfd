(** * C26: an unknown stylus field stays unknown.  C39 for the two instances. *)
From Verif Require Export Props_Geom Props_Kalman.
From Verif Require Import Ieee RealA Flt.
From Coq Require Import Lia Reals Lra.
From Flocq Require Import Core.Core IEEE754.BinarySingleNaN.
Open Scope Z_scope.

Section StylusResults.
Context {A : Arith}.
Variable fuel : nat.

(** Every result comes from one stylus query and one interpolation, whose weight
    is a loop-mitigation value. *)
Definition made_from (sm : Stylus) (lp : LoopParams) (r : Result) : Prop :=
  exists tip n samples pj,
    stylus_query fuel sm tip n = Ret pj /\
    interp_result fuel pj (make_result tip pj) (loop_value lp samples) = Ret r.

Lemma loop_update_value : forall lm v t lm' x, loop_update lm v t = (lm', x) ->
  l_params lm' = l_params lm /\ exists samples, x = loop_value (l_params lm) samples.
Proof.
  intros lm v t lm' x H. unfold loop_update in H. destruct (lp_enabled (l_params lm)) eqn:E; cbn [negb] in H; inversion H; subst.
  - split; [reflexivity|]. eexists. unfold loop_get. cbn. reflexivity.
  - split; [reflexivity|]. exists []. reflexivity.
Qed.

Lemma model_stylus_loop_made : forall tips sm lm x pt lm' out,
  (exists samples, x = loop_value (l_params lm) samples) ->
  model_stylus_loop fuel tips sm lm x pt = Ret (lm', out) ->
  Forall (made_from sm (l_params lm)) out.
Proof.
  induction tips as [|tip rest IH]; intros sm lm x pt lm' out X H; cbn in H.
  - inversion H; constructor.
  - bind_inv H. bind_inv H. destruct (loop_update lm (r_vel x1) (t_time tip)) as [l1 v1] eqn:LU.
    bind_inv H. destruct x2 as [l2 o2]. inversion H; subst.
    apply loop_update_value in LU. destruct LU as [LP LV]. constructor.
    + destruct X as [samples ->]. exists tip, (get_stroke_normal tip pt), samples, x0. auto.
    + rewrite <- LP. eapply IH; [|exact E1]. rewrite LP. exact LV.
Qed.

Lemma model_stylus_made : forall tips sm lm pt lm' out,
  model_stylus fuel tips sm lm pt = Ret (lm', out) -> Forall (made_from sm (l_params lm)) out.
Proof. intros. eapply model_stylus_loop_made; [|exact H]. eexists. reflexivity. Qed.

Lemma loop_value_off : forall lp samples, lp_enabled lp = false -> loop_value lp samples = f1.
Proof. intros lp [|a l] H; [reflexivity|]. unfold loop_value. rewrite H. reflexivity. Qed.

(** ** C26 *)
Hypothesis neg1 : fltb fm1 f0 = true.

Definition flags (p : StrokeModelParams) (is : list Input) (c : core) : Prop :=
  (Exists (fun i => unknown (i_pressure i) = true) is -> s_unk_pressure (co_s c) = true) /\
  (Exists (fun i => unknown (i_tilt i) = true) is -> s_unk_tilt (co_s c) = true) /\
  (Exists (fun i => unknown (i_orient i) = true) is -> s_unk_orient (co_s c) = true).

Lemma stylus_update_flags : forall sm pos t pr ti o sm', stylus_update sm pos t pr ti o = Ret sm' ->
  s_unk_pressure (sm_state sm') = s_unk_pressure (sm_state sm) || unknown pr /\
  s_unk_tilt (sm_state sm') = s_unk_tilt (sm_state sm) || unknown ti /\
  s_unk_orient (sm_state sm') = s_unk_orient (sm_state sm) || unknown o.
Proof.
  intros sm pos t pr ti o sm' H. unfold stylus_update in H.
  destruct (negb (sy_normal (sm_params sm)) && _ && _ && _); [inversion H; auto|].
  destruct (match back (s_raw (sm_state sm)) with Some _ => _ | None => _ end) as [v a].
  bind_inv H. inversion H; auto.
Qed.

Lemma flags_update : forall p sm pos i sm' is c,
  flags p is c -> co_s c = sm_state sm ->
  stylus_update sm pos (i_time i) (i_pressure i) (i_tilt i) (i_orient i) = Ret sm' ->
  forall c', co_s c' = sm_state sm' -> flags p (is ++ [i]) c'.
Proof.
  intros p sm pos i sm' is c (H1 & H2 & H3) E U c' E'. apply stylus_update_flags in U. destruct U as (U1 & U2 & U3).
  rewrite E in *. unfold flags. rewrite E', U1, U2, U3.
  repeat split; intros EX; apply Exists_app in EX; apply orb_true_iff;
    (destruct EX as [EX|EX]; [left; auto|right; inversion EX as [? ? K|? ? K]; [exact K|inversion K]]).
Qed.
Lemma flags_weaken : forall p is is' c, flags p (is ++ is') c -> flags p is c.
Proof.
  intros p is is' c (H1 & H2 & H3). repeat split; intros EX; [apply H1|apply H2|apply H3];
    apply Exists_app; left; exact EX.
Qed.

Lemma flags_after : forall hist s is, after_clean fuel hist s is ->
  exists m rs, run fuel modeler0 hist = Ret (m, rs) /\ tracks s m /\ good m /\ cons m /\
    (forall p last, m_params m = Some p -> m_last m = Some last -> flags p is (core_of p m last)).
Proof.
  intros hist s is H. eapply (after_clean_state fuel (fun _ => True) flags); [| | |exact H|apply call_in_true].
  - intros p m i m' out _ MP V G U EV.
    destruct (upd_down fuel m i m' out U EV) as (q & sm & pred & MP' & _ & _ & SU & _ & _ & EM).
    change [i] with ([] ++ [i]).
    eapply (flags_update p (stylus_reset (m_stylus m) (p_stylus q)) _ i sm [] (mkCore wstate0 tip_default sstate0 [] None (mkLast i (i_pos i)))); [|reflexivity|exact SU|].
    + repeat split; intros K; inversion K.
    + subst m'. reflexivity.
  - intros p m i m' out is0 last last' _ MP V G CP ML JJ U EV ML'.
    destruct (upd_move fuel m i m' out U EV) as (q & last0 & w & cc & sm & n & tip & tips & pred & lm & _ & _ & _ & _ & _ & SU & _ & _ & _ & _ & EM).
    eapply flags_update; [exact JJ|reflexivity|exact SU|]. subst m'. reflexivity.
  - intros p m i m' out is0 last e _ MP V G CP ML JJ U NE.
    destruct U as [st N|q sm pred MP' VI EV2 ML' SU UP|q last0 w cc sm e MP' VI EV2 ML' IE DL WU SU NS NE'
          |q last0 w cc sm n tip tips pred lm out MP' VI EV2 ML' IE DL WU SU NS UA UP MS
          |q last0 n tip1 tips1 tip2 tips2 sm lm out MP' VI EV2 ML' IE DL NS UA ME SU MS]; try congruence.
    apply (flags_weaken p is0 [i]). eapply flags_update; [exact JJ|reflexivity|exact SU|reflexivity].
Qed.

(** What flags do to results. *)
Lemma query_flags : forall sm tip n r, stylus_query fuel sm tip n = Ret r ->
  (s_unk_pressure (sm_state sm) = true -> r_pressure r = fm1) /\
  (s_unk_tilt (sm_state sm) = true -> r_tilt r = fm1) /\
  (s_unk_orient (sm_state sm) = true -> r_orient r = fm1).
Proof.
  intros sm tip n r H. unfold stylus_query in H. destruct (s_raw (sm_state sm)) as [|front rest].
  - inversion H; subst. auto.
  - bind_inv H. inversion H; subst. cbn. repeat split; intros ->; reflexivity.
Qed.

Lemma interp_unknown : forall a b x r, interp_result fuel a b x = Ret r ->
  (r_pressure a = fm1 -> r_pressure r = fm1) /\
  (r_tilt a = fm1 -> r_tilt r = fm1) /\
  (r_orient a = fm1 -> r_orient r = fm1).
Proof.
  intros a b x r H. unfold interp_result in H. bind_inv H. inversion H; subst. cbn.
  split; [intros ->; rewrite neg1; reflexivity|]. split; [intros ->; rewrite neg1; reflexivity|].
  intros K. rewrite K, neg1 in E. cbn [orb] in E. congruence.
Qed.

Lemma made_flags : forall sm lp r, made_from sm lp r ->
  (s_unk_pressure (sm_state sm) = true -> r_pressure r = fm1) /\
  (s_unk_tilt (sm_state sm) = true -> r_tilt r = fm1) /\
  (s_unk_orient (sm_state sm) = true -> r_orient r = fm1).
Proof.
  intros sm lp r (tip & n & samples & pj & Q & I). apply query_flags in Q. apply interp_unknown in I.
  destruct Q as (Q1 & Q2 & Q3), I as (I1 & I2 & I3). repeat split; auto.
Qed.

(** The claim about a list of results. *)
Definition unknown_reported (is : list Input) (out : list Result) : Prop :=
  (Exists (fun i => unknown (i_pressure i) = true) is -> Forall (fun r => r_pressure r = fm1) out) /\
  (Exists (fun i => unknown (i_tilt i) = true) is -> Forall (fun r => r_tilt r = fm1) out) /\
  (Exists (fun i => unknown (i_orient i) = true) is -> Forall (fun r => r_orient r = fm1) out).

Lemma made_unknown : forall sm lp out p is c, Forall (made_from sm lp) out -> flags p is c -> co_s c = sm_state sm ->
  unknown_reported is out.
Proof.
  intros sm lp out p is c M (F1 & F2 & F3) E. rewrite E in *.
  repeat split; intros K; (eapply Forall_impl; [|exact M]); intros r MR; apply made_flags in MR;
    destruct MR as (M1 & M2 & M3); auto.
Qed.

Lemma unknown_update : forall hist s is i rs out,
  after_clean fuel hist s is -> i_event i <> EDown ->
  answers fuel hist [CUpdate i rs] = Ret [RResults OkStatus (rs ++ out)] ->
  unknown_reported (is ++ [i]) out.
Proof.
  intros hist s is i rs out H ND AN.
  destruct (flags_after _ _ _ H) as (m & r0 & R & T & G & C & FL).
  apply answers1 in AN. destruct AN as (m1 & r1 & m' & r & R1 & S & Q & _).
  rewrite R in R1. inversion R1; subst m1 r1. inversion Q; subst r. clear R1 Q.
  cbn [step] in S. bind_inv S. destruct x as [[m2 s2] rs2]. inversion S; subst m2 s2 rs2. clear S.
  apply update_inv in E. destruct E as (out2 & EO & U). apply app_inv_head in EO. subst out2.
  destruct (i_event i) eqn:EV; [congruence| | |].
  - destruct (upd_move fuel m i m' out U EV) as (p & last & w & cc & sm & n & tip & tips & pred & lm & MP & _ & ML & _ & _ & SU & _ & _ & _ & MS & _).
    apply model_stylus_made in MS. eapply (made_unknown sm); [exact MS| |].
    + eapply (flags_update p _ _ _ _ _ _ (FL p last MP ML) eq_refl SU (mkCore wstate0 tip_default (sm_state sm) [] None last)). reflexivity.
    + reflexivity.
  - destruct (upd_up fuel m i m' out U EV) as (p & last & n & tip1 & tips1 & tip2 & tips2 & sm & lm & MP & _ & ML & _ & _ & _ & _ & SU & MS & _).
    apply model_stylus_made in MS. eapply (made_unknown sm); [exact MS| |].
    + eapply (flags_update p _ _ _ _ _ _ (FL p last MP ML) eq_refl SU (mkCore wstate0 tip_default (sm_state sm) [] None last)). reflexivity.
    + reflexivity.
  - exfalso. eapply upd_other; eassumption.
Qed.

Lemma unknown_predict : forall hist s is rs out,
  after_clean fuel hist s is ->
  answers fuel hist [CPredict rs] = Ret [RResults OkStatus out] ->
  unknown_reported is out.
Proof.
  intros hist s is rs out H AN.
  destruct (flags_after _ _ _ H) as (m & r0 & R & T & G & C & FL).
  apply answers1 in AN. destruct AN as (m1 & r1 & m' & r & R1 & S & Q & _).
  rewrite R in R1. inversion R1; subst m1 r1. inversion Q; subst r. clear R1 Q.
  cbn [step] in S. bind_inv S. destruct x as [[m2 s2] rs2]. inversion S; subst m2 s2 rs2. clear S.
  apply predict_inv in E. destruct (prd_ok fuel m m' out E) as (p & pr & last & tips & lm & MP & MR & ML & PC & MS & _).
  apply model_stylus_made in MS. eapply (made_unknown (m_stylus m)); [exact MS|exact (FL p last MP ML)|reflexivity].
Qed.

End StylusResults.

(** ** C26 *)
(** In floating point and in exact arithmetic: every result of a Move or Up, and
    every predicted result, reports exactly -1 for a field that was unknown in
    some input of the stroke. *)
Theorem C26_unknown_stays_unknown_update : forall acosf (A := ieee acosf) fuel hist s is i rs out,
  after_clean fuel hist s is -> i_event i <> EDown ->
  answers fuel hist [CUpdate i rs] = Ret [RResults OkStatus (rs ++ out)] ->
  unknown_reported (is ++ [i]) out.
Proof. intros acosf A fuel. apply unknown_update. reflexivity. Qed.

Theorem C26_unknown_stays_unknown_predict : forall acosf (A := ieee acosf) fuel hist s is rs out,
  after_clean fuel hist s is ->
  answers fuel hist [CPredict rs] = Ret [RResults OkStatus out] ->
  unknown_reported is out.
Proof. intros acosf A fuel. apply unknown_predict. reflexivity. Qed.

Lemma real_neg1 : fltb (Arith := real_arith) (@fm1 real_arith) (@f0 real_arith) = true.
Proof. cbn. apply Rlt_bool_true. apply IZR_lt. lia. Qed.

Theorem C26_unknown_stays_unknown_update_exact : forall (A := real_arith) fuel hist s is i rs out,
  after_clean fuel hist s is -> i_event i <> EDown ->
  answers fuel hist [CUpdate i rs] = Ret [RResults OkStatus (rs ++ out)] ->
  unknown_reported (is ++ [i]) out.
Proof. intros A fuel. apply unknown_update. exact real_neg1. Qed.

Theorem C26_unknown_stays_unknown_predict_exact : forall (A := real_arith) fuel hist s is rs out,
  after_clean fuel hist s is ->
  answers fuel hist [CPredict rs] = Ret [RResults OkStatus out] ->
  unknown_reported is out.
Proof. intros A fuel. apply unknown_predict. exact real_neg1. Qed.

(** ** C39 *)
Lemma trunc_max_one_ieee : forall acosf, @trunc_max_one (ieee acosf).
Proof.
  intros acosf x z. unfold std_fmax. destruct (f1_fin acosf) as [F1 E1].
  assert (ONE : forall z', @ftoint (ieee acosf) (@f1 (ieee acosf)) = Some z' -> 1 <= z').
  { intros z' H. cbn [ftoint ieee] in H. apply to_int_some in H; [|reflexivity]. destruct H as (_ & -> & _). rewrite E1.
    rewrite (Ztrunc_IZR 1). lia. }
  destruct (fisnan x); [apply ONE|]. destruct (fisnan f1) eqn:N; [discriminate N|].
  destruct (fltb x f1) eqn:L; [apply ONE|]. intros H. cbn [ftoint ieee] in H.
  apply to_int_some in H; [|reflexivity]. destruct H as (F & -> & _). cbn [fltb ieee] in L.
  apply ltb_false_R in L; [|exact F|exact F1]. rewrite E1 in L. rewrite <- (Ztrunc_IZR 1). apply Ztrunc_le. exact L.
Qed.

Lemma trunc_max_one_real : @trunc_max_one real_arith.
Proof.
  intros x z. unfold std_fmax. cbn. unfold Rltb, R_to_int.
  intros H. destruct (Rlt_bool_spec x 1) as [L|L]; (destruct (_ && _) in H; [|discriminate H]); inversion H.
  - rewrite (Ztrunc_IZR 1). lia.
  - rewrite <- (Ztrunc_IZR 1) at 1. apply Ztrunc_le. exact L.
Qed.

(** From min_stable_iteration inputs on, Predict returns at least one result
    (whenever it returns: see C45 for the huge estimates for which it is undefined). *)
Theorem C39_predict_nonempty_from_stable : forall acosf (A := ieee acosf) fuel hist s is p kp rs r,
  after_inputs fuel hist s is -> ps_params s = Some p -> p_prediction p = PredKalman kp -> in_stroke s = true ->
  kp_min_stable kp <= Z.of_nat (List.length is) ->
  answers fuel hist [CPredict rs] = Ret r ->
  exists first more, r = [RResults OkStatus (first :: more)].
Proof. intros acosf A fuel hist s is p kp rs r. apply predict_nonempty_from_stable. apply trunc_max_one_ieee. Qed.

Theorem C39_predict_nonempty_from_stable_exact : forall (A := real_arith) fuel hist s is p kp rs r,
  after_inputs fuel hist s is -> ps_params s = Some p -> p_prediction p = PredKalman kp -> in_stroke s = true ->
  kp_min_stable kp <= Z.of_nat (List.length is) ->
  answers fuel hist [CPredict rs] = Ret r ->
  exists first more, r = [RResults OkStatus (first :: more)].
Proof. intros A fuel hist s is p kp rs r. apply predict_nonempty_from_stable. apply trunc_max_one_real. Qed.
