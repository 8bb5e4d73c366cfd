(** * C25 in binary32/binary64: prediction and lifting the pen. *)
From Coq Require Import ZArith Bool List Reals Lra Lia.
From Flocq Require Import Core BinarySingleNaN.
From Verif Require Import Props_FRest Props_FBounded Props_Stylus.
Import ListNotations.

Section Lift.
Context {A : Arith} (fuel : nat).

(** The stroke has had an input of unknown pressure, one of unknown tilt and one of unknown orientation. *)
Definition all_unknown (is : list Input) : Prop :=
  Exists (fun i => unknown (i_pressure i) = true) is /\
  Exists (fun i => unknown (i_tilt i) = true) is /\
  Exists (fun i => unknown (i_orient i) = true) is.

Definition lift_inv (p : StrokeModelParams) (es : list entry) (c : core) : Prop :=
  (p_prediction p = PredStrokeEnd -> co_pred c = Some (PStrokeEnd (p_position p) (p_sampling p) (Some (li_corrected (co_last c))))) /\
  (wp_enabled (p_wobble p) = false -> li_corrected (co_last c) = i_pos (li_input (co_last c))) /\
  validate_input (li_input (co_last c)) = OkStatus /\
  flags p (map fst es) c /\
  (sy_normal (p_stylus p) = false -> s_unk_pressure (co_s c) = true -> s_unk_tilt (co_s c) = true -> s_unk_orient (co_s c) = true -> s_raw (co_s c) = []).

Lemma stylus_update_raw : forall sm pos t pr ti o sm', stylus_update sm pos t pr ti o = Ret sm' ->
  sy_normal (sm_params sm) = false -> s_unk_pressure (sm_state sm') = true -> s_unk_tilt (sm_state sm') = true -> s_unk_orient (sm_state sm') = true ->
  s_raw (sm_state sm') = [].
Proof.
  intros sm pos t pr ti o sm' H N. pose proof (stylus_update_flags _ _ _ _ _ _ _ H) as (E1 & E2 & E3).
  rewrite E1, E2, E3. intros U1 U2 U3. unfold stylus_update, unknown_value in H. unfold unknown in *. rewrite N, U1, U2, U3 in H. cbn [negb andb] in H.
  injection H as <-. reflexivity.
Qed.

Lemma wobble_off : forall w pos t w' c, wobble_update w pos t = Ret (w', c) -> wp_enabled (w_params w) = false -> c = pos.
Proof. intros w pos t w' c H E. unfold wobble_update in H. rewrite E in H. cbn in H. congruence. Qed.

Lemma lift_state : forall hist s es, after_stroke fuel hist s es ->
  exists m rs, run fuel modeler0 hist = Ret (m, rs) /\ tracks s m /\ good m /\ cons m /\
    (forall p last, m_params m = Some p -> m_last m = Some last -> lift_inv p es (core_of p m last)).
Proof.
  intros hist s es AS. eapply (after_stroke_state fuel (fun _ => True) lift_inv); [| | |exact AS|apply call_in_true].
  - intros p m i m' out _ MP V G U EV.
    destruct (upd_down fuel m i m' out U EV) as (q & sm & pred & MP2 & VI & _ & SU & UP & _ & ->).
    rewrite MP in MP2. injection MP2 as <-. split; [|split; [|split; [|split]]].
    + intros PS. assert (PO : prediction_on p = true) by (unfold prediction_on; rewrite PS; reflexivity).
      destruct (g_on _ G p MP PO) as [GP _]. unfold make_predictor in GP. rewrite PS in GP.
      change (reset_pred (m_predictor m)) with (option_map pred_reset (m_predictor m)) in GP. rewrite GP in UP.
      cbn in UP. injection UP as <-. unfold core_of. rewrite PO. reflexivity.
    + reflexivity.
    + exact VI.
    + eapply (flags_update p (stylus_reset (m_stylus m) (p_stylus p)) _ i sm [] (mkCore wstate0 tip_default sstate0 [] None (mkLast i (i_pos i)))); [|reflexivity|exact SU|reflexivity]. repeat split; intros X; inversion X.
    + intros N. apply (stylus_update_raw _ _ _ _ _ _ _ SU). exact N.
  - intros p m i m' out es0 lst last' _ MP V G CP ML (J1 & J2 & J3 & J4 & J5) U EV ML'.
    destruct (upd_move fuel m i m' out U EV) as (p0 & last0 & w & c & sm & n & tip & tips & pred & lm & MP0 & VI & ML0 & DL & WU & SU & NS & UA & UP & MS & EM).
    destruct CP as (C1 & C2 & C3 & C4).
    rewrite EM in ML' |- *. cbn in ML'. injection ML' as <-. split; [|split; [|split; [|split]]].
    + intros PS. specialize (J1 PS). assert (PO : prediction_on p = true) by (unfold prediction_on; rewrite PS; reflexivity).
      unfold core_of in *. rewrite PO in *. cbn [co_pred co_last] in *. rewrite J1 in UP. cbn in UP. injection UP as <-. reflexivity.
    + intros W. apply (wobble_off _ _ _ _ _ WU). congruence.
    + exact VI.
    + rewrite map_app. cbn [map fst]. eapply flags_update; [exact J4|reflexivity|exact SU|reflexivity].
    + intros N. apply (stylus_update_raw _ _ _ _ _ _ _ SU). congruence.
  - intros p m i m' out is lst e _ MP V G CP ML J U NE. destruct J as (J1 & J2 & J3 & (J4 & J5 & J6) & J7). destruct CP as (_ & _ & C3 & _).
    inversion U; subst; try congruence; try (exact (conj J1 (conj J2 (conj J3 (conj (conj J4 (conj J5 J6)) J7))))).
    match goal with SU : stylus_update _ _ _ _ _ _ = _ |- _ => pose proof (stylus_update_flags _ _ _ _ _ _ _ SU) as (F1 & F2 & F3); pose proof (stylus_update_raw _ _ _ _ _ _ _ SU) as FR end.
    split; [exact J1|]. split; [exact J2|]. split; [exact J3|]. unfold flags, core_of in *. cbn [co_s m_stylus] in *. split.
    + rewrite F1, F2, F3. repeat split; intros X; apply orb_true_iff; left; auto.
    + intros N. apply FR. congruence.
Qed.

(** Without stylus data the projection does not matter. *)
Lemma model_stylus_plain : forall tips sm sm' lm t, s_raw (sm_state sm) = [] -> s_raw (sm_state sm') = [] ->
  model_stylus fuel tips sm lm t = model_stylus fuel tips sm' lm t.
Proof.
  intros tips sm sm' lm t E E'. unfold model_stylus. generalize (loop_get lm). revert lm t.
  induction tips as [|tip rest IH]; intros lm t x; [reflexivity|]. cbn [model_stylus_loop].
  unfold stylus_query at 1 2. rewrite E, E'. cbn [obind].
  destruct (interp_result fuel result_no_info _ x) as [r| |]; cbn [obind]; [|reflexivity|reflexivity].
  destruct (loop_update lm (r_vel r) (t_time tip)) as [l v]. rewrite IH. reflexivity.
Qed.
Lemma model_stylus_length : forall tips sm lm t lm' out, model_stylus fuel tips sm lm t = Ret (lm', out) -> List.length out = List.length tips.
Proof.
  intros tips sm lm t lm' out. unfold model_stylus. generalize (loop_get lm). revert lm t lm' out.
  induction tips as [|tip rest IH]; intros lm t lm' out x H; cbn [model_stylus_loop] in H; [injection H as <- <-; reflexivity|].
  bind_inv H. bind_inv H. destruct (loop_update lm _ _) as [l v]. bind_inv H. destruct x2 as [l2 o2]. injection H as <- <-.
  cbn [List.length]. f_equal. eapply IH. exact E1.
Qed.
Lemma path_none : forall pp tip a ta b tb tip' tips, update_along_path pp tip a ta b tb 0 = Ret (tip', tips) -> tip' = tip /\ tips = [].
Proof. intros pp tip a ta b tb tip' tips H. unfold update_along_path in H. cbn in H. split; congruence. Qed.

Lemma lift_generic : forall hist s p i0 i rs rs' out pred es,
  after_stroke fuel hist s es -> ps_params s = Some p -> ps_last s = Some i0 ->
  p_prediction p = PredStrokeEnd -> wp_enabled (p_wobble p) = false -> sy_normal (p_stylus p) = false ->
  all_unknown (map fst es) ->
  i_event i = EUp -> i_pos i = i_pos i0 -> i_time i = i_time i0 ->
  (forall tip n, validate_params p = OkStatus -> validate_input i0 = OkStatus ->
     number_of_steps tip i0 i (p_sampling p) (p_position p) = Ret (IOk n) -> n = 0%Z) ->
  answers fuel hist [CPredict rs'] = Ret [RResults OkStatus pred] ->
  answers fuel hist [CUpdate i rs] = Ret [RResults OkStatus (rs ++ out)] ->
  (pred <> [] -> out = pred) /\ (pred = [] -> List.length out = 1%nat).
Proof.
  intros hist s p i0 i rs rs' out pred es AS P L PS W SN (X1 & X2 & X3) EV IP IT STILL AP AN.
  destruct (lift_state _ _ _ AS) as (m0 & rs0 & R0 & _ & _ & _ & LI).
  assert (AF : after fuel hist s) by (destruct AS as (ma & rsa & Ra & Pa & _); exists ma, rsa; auto).
  destruct (accepted_update _ _ _ _ _ _ _ AF AN) as (m & r0 & m' & o & R & (T1 & T2 & _) & G & C & K & U & _).
  rewrite R0 in R. apply ret_inj in R. injection R as -> ->. apply app_inv_head in K. subst o. rewrite P in T1. rewrite L in T2. symmetry in T1.
  destruct (m_last m) as [lst|] eqn:ML; [|discriminate T2]. injection T2 as ->.
  pose proof (g_valid _ G p T1) as V.
  assert (CP : comp_params p m) by (apply C; [exact T1|left; congruence]).
  destruct (LI p lst T1 eq_refl) as (J1 & J2 & J3 & (J4 & J5 & J6) & J7). specialize (J1 PS). specialize (J2 W).
  unfold core_of in *. cbn [co_last co_pred co_s] in *.
  assert (PO : prediction_on p = true) by (unfold prediction_on; rewrite PS; reflexivity). rewrite PO in J1.
  specialize (J7 SN (J4 X1) (J5 X2) (J6 X3)).
  destruct (accepted_predict _ _ _ _ _ _ AF AP) as (m2 & r2 & m2' & R2 & _ & _ & _ & PR).
  rewrite R0 in R2. apply ret_inj in R2. injection R2 as <- <-.
  apply prd_ok in PR. destruct PR as (p' & pr & last' & ptips & lm & MP' & PR & ML' & PC & PMS & _).
  rewrite J1 in PR. injection PR as <-. cbn [pred_construct] in PC. injection PC as PC.
  destruct CP as (C1 & C2 & C3 & C4). rewrite J2, <- IP in PC. rewrite ML in ML'. injection ML' as <-.
  destruct (upd_up fuel m i m' out U EV) as (p0 & last0 & n & tip1 & tips1 & tip2 & tips2 & sm & lm2 & MP0 & VI & ML0 & DL & NS & UA & ME & SU & MS & _).
  rewrite T1 in MP0. injection MP0 as <-. rewrite ML in ML0. injection ML0 as <-.
  rewrite (STILL _ _ V J3 NS) in UA. apply path_none in UA. destruct UA as [-> ->]. cbn [app] in MS.
  assert (RAW : s_raw (sm_state sm) = []).
  { pose proof (stylus_update_flags _ _ _ _ _ _ _ SU) as (F1 & F2 & F3).
    rewrite (J4 X1) in F1. rewrite (J5 X2) in F2. rewrite (J6 X3) in F3. cbn [orb] in *.
    apply (stylus_update_raw _ _ _ _ _ _ _ SU); try assumption. congruence. }
  rewrite (model_stylus_plain _ _ sm _ _ J7 RAW) in PMS.
  rewrite C2 in ME. rewrite ME in PC. cbn [snd] in PC. subst tips2. split.
  - intros NE. destruct ptips as [|t0 ts]; [exfalso; apply NE; cbn in PMS; congruence|].
    rewrite MS in PMS. apply ret_inj in PMS. congruence.
  - intros ->. apply model_stylus_length in PMS. symmetry in PMS. apply length_zero_iff_nil in PMS. subst ptips.
    apply model_stylus_length in MS. exact MS.
Qed.

End Lift.

(** No time, no steps. *)
Lemma steps_still_F : forall acosf (A := ieee acosf) (p : StrokeModelParams (A := ieee acosf)) tip i0 i n,
  dltb d0 (sp_max_angle (p_sampling p)) = false -> i_time i = i_time i0 ->
  validate_params p = OkStatus -> validate_input i0 = OkStatus ->
  number_of_steps tip i0 i (p_sampling p) (p_position p) = Ret (IOk n) -> n = 0%Z.
Proof.
  intros acosf A p tip i0 i n MA IT V VI NS. subst A.
  apply input_F in VI. destruct VI as (_ & _ & FT).
  assert (R0 : is_finite (sp_rate (p_sampling p) : float64) = true).
  { destruct (validate_params_parts p V) as (_ & _ & VS & _). unfold validate_sampling in VS. apply and_then_ok in VS. destruct VS as [VR _]. apply gt0_d_F in VR. exact (proj1 VR). }
  unfold number_of_steps in NS. rewrite MA, IT in NS.
  replace (dtoint _) with (Some 0%Z) in NS.
  - cbn [to_int] in NS. destruct (absolute_angle_to _ _) in NS; [|discriminate NS].
    destruct (Z.ltb (sp_max_outputs (p_sampling p)) 0); apply ret_inj in NS; congruence.
  - clear - FT R0. cbn [dtoint dceil dofZ dmul dsub d2f f2d ieee]. unfold std_dmin. cbn [dltb ieee].
    change (@i_time (ieee acosf)) with (fun i : @Input (ieee acosf) => (@i_time (ieee acosf) i : float64)) in *. cbv beta in *.
    set (t := @i_time (ieee acosf) i0 : float64) in *. set (r := @sp_rate (ieee acosf) (p_sampling p) : float64) in *. clearbody t r.
    rewrite minus_self by (exact FT || reflexivity). destruct r as [u|u| |u m e B]; try discriminate R0; destruct u; vm_compute; reflexivity.
Qed.

(** With stroke-end prediction, smoothing and the angle limit off, and no stylus
    data: the prediction is what an Up at the position and time of the last
    input would give, bit by bit; if it is empty, such an Up gives one result. *)
Theorem C25_float_prediction_is_lifting_the_pen : forall acosf (A := ieee acosf) fuel hist s
    (p : StrokeModelParams (A := ieee acosf)) (i0 i : Input (A := ieee acosf)) rs rs' out pred es,
  after_stroke fuel hist s es -> ps_params s = Some p -> ps_last s = Some i0 ->
  p_prediction p = PredStrokeEnd -> wp_enabled (p_wobble p) = false -> sy_normal (p_stylus p) = false ->
  dltb d0 (sp_max_angle (p_sampling p)) = false ->
  all_unknown (map fst es) ->
  i_event i = EUp -> i_pos i = i_pos i0 -> i_time i = i_time i0 ->
  answers fuel hist [CPredict rs'] = Ret [RResults OkStatus pred] ->
  answers fuel hist [CUpdate i rs] = Ret [RResults OkStatus (rs ++ out)] ->
  (pred <> [] -> out = pred) /\ (pred = [] -> List.length out = 1%nat).
Proof.
  intros acosf A fuel hist s p i0 i rs rs' out pred es AS P L PS W SN MA AU EV IP IT AP AN. subst A.
  eapply (lift_generic fuel hist s p i0 i rs rs' out pred es); try eassumption.
  intros tip n V VI NS. eapply steps_still_F; eassumption.
Qed.
