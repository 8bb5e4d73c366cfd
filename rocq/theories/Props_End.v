(** * C25, C50: stroke-end prediction and angle-based upsampling (exact arithmetic). *)
From Coq Require Import ZArith Bool List Sorted Reals Lra Lia Psatz.
From Flocq Require Import Core.Raux.
From Verif Require Export Props_Spring.
Import ListNotations.
Open Scope R_scope.

(** The tip is where the last result says. *)
Lemma spring_ready : forall fuel hist s p i0 es prev,
  after_stroke fuel hist s es -> ps_params s = Some p -> ps_last s = Some i0 ->
  lp_enabled (pp_loop (p_position p)) = false -> back (List.concat (map snd es)) = Some prev ->
  exists m rs0 lst, run fuel modeler0 hist = Ret (m, rs0) /\ m_params m = Some p /\ m_last m = Some lst /\
    li_input lst = i0 /\ good m /\ cons m /\ pm_state (m_pos m) = tip_of prev /\
    (wp_enabled (p_wobble p) = false -> li_corrected lst = i_pos i0).
Proof.
  intros fuel hist s p i0 es prev AS P L LP BK.
  destruct (on_spring_state _ _ _ _ AS) as (m & rs0 & R0 & (T1 & T2 & _) & G & C & OS).
  rewrite P in T1. rewrite L in T2. symmetry in T1.
  destruct (m_last m) as [lst|] eqn:ML; [|discriminate T2]. injection T2 as ->.
  destruct (OS p lst T1 eq_refl) as (d & es' & ws & EE & LW & KC & KW & KD). destruct (KD LP) as [_ KT].
  cbn [core_of co_tip co_last] in KT, KC.
  exists m, rs0, lst. do 6 (split; [assumption || reflexivity|]). split; [|intros W; apply (KW W)].
  rewrite KT. f_equal. rewrite EE in BK. cbn [map snd List.concat app] in BK. unfold back in BK.
  revert BK. generalize (down_result d) (List.concat (map snd es')). clear. intros x l. revert x.
  induction l as [|y l IH]; intros x BK; [cbn in BK |- *; congruence|]. rewrite last_cons. apply IH. exact BK.
Qed.

(** ** C50 *)
(** The number [th] in [0, pi] is the angle between two non-zero vectors. *)
Definition norm (v : Vec2) : R := sqrt (vx v * vx v + vy v * vy v).
Definition is_angle (u v : Vec2) (th : R) : Prop :=
  0 <= th <= PI /\ norm u <> 0 /\ norm v <> 0 /\
  vx u * vx v + vy u * vy v = norm u * norm v * cos th.

Lemma absolute_angle_R : forall u v th, is_angle u v th -> absolute_angle_to u v = Some th.
Proof.
  intros u v th (T & NU & NV & E). unfold absolute_angle_to, vfinite, fisfinite. rsimp. cbn [negb andb orb].
  unfold magnitude. rsimp. fold (norm u) (norm v).
  destruct (Reqb (norm u) 0) eqn:E1; [apply Reqb_true in E1; contradiction|].
  destruct (Reqb (norm v) 0) eqn:E2; [apply Reqb_true in E2; contradiction|].
  cbn [orb]. f_equal. unfold vdot, vdiv. rsimp.
  replace (vx u / norm u * (vx v / norm v) + vy u / norm u * (vy v / norm v)) with (cos th).
  2:{ replace (vx u / norm u * (vx v / norm v) + vy u / norm u * (vy v / norm v))
        with ((vx u * vx v + vy u * vy v) / (norm u * norm v)) by (field; auto).
      rewrite E. field. auto. }
  unfold std_clamp. rsimp. pose proof (COS_bound th).
  destruct (Rltb (cos th) (-1)) eqn:E3; [apply Rltb_true in E3; lra|].
  destruct (Rltb 1 (cos th)) eqn:E4; [apply Rltb_true in E4; lra|].
  apply acos_cos. exact T.
Qed.

(** The velocity the tip is estimated to have after the input [i]. *)
Definition estimated_velocity (pp : PositionParams) (prev : Result) (i0 i : Input) : Vec2 :=
  let dt := i_time i - i_time i0 in
  mkVec2 (vx (r_vel prev) + dt * ((vx (i_pos i) - vx (r_pos prev)) / pp_spring pp))
         (vy (r_vel prev) + dt * ((vy (i_pos i) - vy (r_pos prev)) / pp_spring pp)).

Lemma steps_angle : forall prev i0 i sp pp n th, 0 < sp_max_angle sp -> (n < INT_MAX)%Z ->
  number_of_steps (tip_of prev) i0 i sp pp = Ret (IOk n) ->
  is_angle (r_vel prev) (estimated_velocity pp prev i0 i) th ->
  th <= IZR n * sp_max_angle sp.
Proof.
  intros prev i0 i sp pp n th MA N NS IA.
  destruct (steps_R _ _ _ _ _ _ NS) as (_ & _ & a & TA & EN).
  assert (E : Some a = Some th).
  { rewrite <- TA. unfold turn_angle. cbn [tip_of t_vel t_pos].
    replace (vadd _ _) with (estimated_velocity pp prev i0 i); [apply absolute_angle_R; exact IA|].
    unfold estimated_velocity, vadd, vscale, vdiv, vsub. rsimp. reflexivity. }
  injection E as ->. assert (MB : Rltb 0 (sp_max_angle sp) = true) by (apply Rltb_true; exact MA).
  rewrite MB in EN. assert (K : (Zceil (th / sp_max_angle sp) <= n)%Z) by lia.
  apply IZR_le in K. pose proof (Zceil_ub (th / sp_max_angle sp)) as UB.
  replace th with (th / sp_max_angle sp * sp_max_angle sp) by (field; lra).
  apply Rmult_le_compat_r; lra.
Qed.

(** With the angle limit set, a Move or Up produces at least as many results as
    the estimated turning angle divided by the limit. *)
Theorem C50_angle_limit : forall (A := real_arith) fuel hist s p i0 i rs out es prev th,
  after_stroke fuel hist s es -> ps_params s = Some p -> ps_last s = Some i0 ->
  i_event i = EMove \/ i_event i = EUp ->
  lp_enabled (pp_loop (p_position p)) = false ->
  back (List.concat (map snd es)) = Some prev ->
  answers fuel hist [CUpdate i rs] = Ret [RResults OkStatus (rs ++ out)] ->
  0 < sp_max_angle (p_sampling p) ->
  is_angle (r_vel prev) (estimated_velocity (p_position p) prev i0 i) th ->
  th / sp_max_angle (p_sampling p) <= INR (List.length out).
Proof.
  intros A fuel hist s p i0 i rs out es prev th AS P L EV LP BK AN MA IA. subst A.
  destruct (spring_ready _ _ _ _ _ _ _ AS P L LP BK) as (m0 & rs0 & lst & R0 & MP & ML & <- & _ & _ & TP & _).
  assert (AF : after fuel hist s) by (destruct AS as (ma & rsa & Ra & Pa & _); exists ma, rsa; auto).
  destruct (accepted_update _ _ _ _ _ _ _ AF AN) as (m & r0 & m' & o & R & _ & G & C & K & U & _).
  rewrite R0 in R. injection R as -> ->. apply app_inv_head in K. subst o.
  pose proof (g_valid _ G p MP) as V.
  assert (KEY : exists n, (0 <= n < INT_MAX)%Z /\ number_of_steps (pm_state (m_pos m)) (li_input lst) i (p_sampling p) (p_position p) = Ret (IOk n) /\
     (Z.to_nat n <= List.length out)%nat).
  { destruct EV as [EV|EV].
    - destruct (move_R fuel p m i m' out V MP (C p MP ltac:(left; congruence)) U EV) as (last0 & w & c & n & tips & ML0 & _ & _ & _ & DL & NS & N & NB & ET & EP & ER & _).
      rewrite ML in ML0. injection ML0 as <-. exists n. split; [exact N|]. split; [exact NS|].
      rewrite <- (map_length r_time), ER, map_length, ET, scan_length, map_length, seq_length. lia.
    - destruct (up_R fuel p m i m' out V MP (C p MP ltac:(left; congruence)) U EV) as (last0 & n & tips1 & tip1 & tip2 & tips2 & tips & ML0 & DL & NS & N & NB & ET & EP & ME & ETS & ER & _).
      rewrite ML in ML0. injection ML0 as <-. exists n. split; [exact N|]. split; [exact NS|].
      rewrite <- (map_length r_time), ER, map_length, ETS.
      assert (LEN : List.length tips1 = Z.to_nat n) by (rewrite ET, scan_length, map_length, seq_length; reflexivity).
      destruct (tips1 ++ tips2) as [|x l] eqn:E; [apply app_eq_nil in E; destruct E as [-> _]; cbn in LEN |- *; lia|].
      rewrite <- E, app_length. lia. }
  destruct KEY as (n & N & NS & LE). rewrite TP in NS.
  pose proof (steps_angle _ _ _ _ _ _ _ MA (proj2 N) NS IA) as ST.
  apply Rle_trans with (IZR n).
  - apply Rmult_le_reg_r with (sp_max_angle (p_sampling p)); [exact MA|]. unfold Rdiv. rewrite Rmult_assoc, Rinv_l by lra. lra.
  - rewrite INR_IZR_INZ. apply IZR_le. lia.
Qed.

(** The exact number of results of a Move: enough for the output rate and, with
    the angle limit set, for the estimated turning angle. *)
Lemma norm_rest : forall u v, (norm u = 0 \/ norm v = 0) -> absolute_angle_to u v = Some 0.
Proof.
  intros u v H. unfold absolute_angle_to, vfinite, fisfinite. rsimp. cbn [negb andb orb].
  unfold magnitude. rsimp. fold (norm u) (norm v).
  destruct H as [-> | ->]; rewrite (proj2 (Reqb_true 0 0) eq_refl), ?orb_true_r; reflexivity.
Qed.
Lemma Zceil_0_le : forall x, 0 <= x -> (0 <= Zceil x)%Z.
Proof. intros x H. rewrite <- (Zceil_IZR 0). apply Zceil_le. exact H. Qed.

Lemma move_count : forall fuel hist s p i0 i rs out,
  after fuel hist s -> ps_params s = Some p -> ps_last s = Some i0 -> i_event i = EMove ->
  answers fuel hist [CUpdate i rs] = Ret [RResults OkStatus (rs ++ out)] ->
  exists m r0 lst n, run fuel modeler0 hist = Ret (m, r0) /\ m_params m = Some p /\ m_last m = Some lst /\ i0 = li_input lst /\
    i_time i0 <= i_time i /\ (0 <= n < INT_MAX)%Z /\
    number_of_steps (pm_state (m_pos m)) i0 i (p_sampling p) (p_position p) = Ret (IOk n) /\
    Z.of_nat (List.length out) = n.
Proof.
  intros fuel hist s p i0 i rs out AF P L EV AN.
  destruct (accepted_update _ _ _ _ _ _ _ AF AN) as (m & r0 & m' & o & R & (T1 & T2 & _) & G & C & K & U & _).
  apply app_inv_head in K. subst o. rewrite P in T1. rewrite L in T2. symmetry in T1.
  destruct (m_last m) as [lst|] eqn:ML; [|discriminate T2]. injection T2 as E0.
  pose proof (g_valid _ G p T1) as V.
  destruct (move_R fuel p m i m' out V T1 (C p T1 ltac:(left; congruence)) U EV) as (last0 & w & c & n & tips & ML0 & _ & _ & _ & DL & NS & N & NB & ET & EP & ER & _).
  rewrite ML in ML0. injection ML0 as <-. exists m, r0, lst, n.
  do 4 (split; [assumption|]). rewrite E0. split; [exact DL|]. split; [exact N|]. split; [exact NS|].
  rewrite <- (map_length r_time), ER, map_length, ET, scan_length, map_length, seq_length. lia.
Qed.

Theorem C22_move_exact_count : forall (A := real_arith) fuel hist s p i0 i rs out,
  after fuel hist s -> ps_params s = Some p -> ps_last s = Some i0 -> i_event i = EMove ->
  sp_max_angle (p_sampling p) = -1 ->
  answers fuel hist [CUpdate i rs] = Ret [RResults OkStatus (rs ++ out)] ->
  Z.of_nat (List.length out) = Zceil ((i_time i - i_time i0) * sp_rate (p_sampling p)).
Proof.
  intros A fuel hist s p i0 i rs out AF P L EV MA AN. subst A.
  destruct (move_count _ _ _ _ _ _ _ _ AF P L EV AN) as (m & r0 & lst & n & _ & _ & _ & _ & _ & N & NS & ->).
  destruct (steps_R _ _ _ _ _ _ NS) as (_ & _ & a & _ & EN). rewrite MA in EN.
  destruct (Rltb 0 (-1)) eqn:E; [apply Rltb_true in E; lra|]. lia.
Qed.

Theorem C50_exact_count : forall (A := real_arith) fuel hist s p i0 i rs out es prev th,
  after_stroke fuel hist s es -> ps_params s = Some p -> ps_last s = Some i0 -> i_event i = EMove ->
  lp_enabled (pp_loop (p_position p)) = false ->
  back (List.concat (map snd es)) = Some prev ->
  answers fuel hist [CUpdate i rs] = Ret [RResults OkStatus (rs ++ out)] ->
  0 < sp_max_angle (p_sampling p) ->
  let v := estimated_velocity (p_position p) prev i0 i in
  (is_angle (r_vel prev) v th \/ (norm (r_vel prev) = 0 \/ norm v = 0) /\ th = 0) ->
  Z.of_nat (List.length out) =
    Z.max (Zceil ((i_time i - i_time i0) * sp_rate (p_sampling p))) (Zceil (th / sp_max_angle (p_sampling p))).
Proof.
  intros A fuel hist s p i0 i rs out es prev th AS P L EV LP BK AN MA v IA. subst A v.
  destruct (spring_ready _ _ _ _ _ _ _ AS P L LP BK) as (m0 & rs0 & lst0 & R0 & MP & ML & _ & _ & _ & TP & _).
  assert (AF : after fuel hist s) by (destruct AS as (ma & rsa & Ra & Pa & _); exists ma, rsa; auto).
  destruct (move_count _ _ _ _ _ _ _ _ AF P L EV AN) as (m & r0 & lst & n & R & MP' & _ & _ & TT & N & NS & ->).
  rewrite R0 in R. injection R as <- <-. rewrite TP in NS.
  destruct (steps_R _ _ _ _ _ _ NS) as (_ & _ & a & TA & EN).
  assert (E : Some a = Some th).
  { rewrite <- TA. unfold turn_angle. cbn [tip_of t_vel t_pos].
    replace (vadd _ _) with (estimated_velocity (p_position p) prev i0 i)
      by (unfold estimated_velocity, vadd, vscale, vdiv, vsub; rsimp; reflexivity).
    destruct IA as [IA|[IA ->]]; [apply absolute_angle_R|apply norm_rest]; exact IA. }
  injection E as ->. rewrite (proj2 (Rltb_true 0 _) MA) in EN. unfold INT_MAX in *. lia.
Qed.

(** ** C25 *)
Definition end_predictor (p : StrokeModelParams) (es : list entry) (c : core) : Prop :=
  p_prediction p = PredStrokeEnd ->
  co_pred c = Some (PStrokeEnd (p_position p) (p_sampling p) (Some (li_corrected (co_last c)))).

Lemma end_predictor_state : forall fuel hist s es, after_stroke fuel hist s es ->
  exists m rs, run fuel modeler0 hist = Ret (m, rs) /\ tracks s m /\ good m /\ cons m /\
    (forall p last, m_params m = Some p -> m_last m = Some last -> end_predictor p es (core_of p m last)).
Proof.
  intros fuel hist s es AS. eapply (after_stroke_state fuel (fun _ => True) end_predictor); [| | |exact AS|apply call_in_true].
  - intros p m i m' out _ MP V G U EV PS.
    destruct (upd_down fuel m i m' out U EV) as (q & sm & pred & MP2 & _ & _ & _ & UP & _ & ->).
    assert (PO : prediction_on p = true) by (unfold prediction_on; rewrite PS; reflexivity).
    destruct (g_on _ G p MP PO) as [GP _]. unfold make_predictor in GP. rewrite PS in GP.
    change (reset_pred (m_predictor m)) with (option_map pred_reset (m_predictor m)) in GP. rewrite GP in UP.
    cbn in UP. injection UP as <-. unfold core_of. rewrite PO. reflexivity.
  - intros p m i m' out is lst last' _ MP V G CP ML J U EV ML' PS.
    assert (PO : prediction_on p = true) by (unfold prediction_on; rewrite PS; reflexivity).
    destruct (upd_move fuel m i m' out U EV) as (p0 & last0 & w & c & sm & n & tip & tips & pred & lm & MP0 & _ & ML0 & DL & WU & SU & NS & UA & UP & MS & EM).
    specialize (J PS). unfold core_of in *. rewrite PO in *. cbn [co_pred co_last] in *. rewrite J in UP. cbn in UP. injection UP as <-.
    rewrite EM in ML' |- *. cbn in ML' |- *. injection ML' as <-. reflexivity.
  - intros p m i m' out is lst e _ MP V G CP ML J U NE. inversion U; subst; try congruence; exact J.
Qed.

Lemma steps_still : forall tip i0 i sp pp n, i_time i = i_time i0 ->
  number_of_steps tip i0 i sp pp = Ret (IOk n) -> n = 0%Z.
Proof.
  intros tip i0 i sp pp n T NS. destruct (steps_R _ _ _ _ _ _ NS) as (_ & _ & a & TA & EN).
  assert (Z0 : Zceil ((i_time i - i_time i0) * sp_rate sp) = 0%Z).
  { rewrite T. replace ((i_time i0 - i_time i0) * sp_rate sp) with (IZR 0) by (cbn; ring). apply Zceil_IZR. }
  rewrite Z0 in EN. change (Z.min 0 INT_MAX) with 0%Z in EN.
  assert (A0 : a = 0).
  { unfold turn_angle in TA. rewrite T in TA.
    replace (vadd _ _) with (t_vel tip) in TA.
    2:{ apply vec_eq; unfold vadd, vscale; rsimp; rewrite Rminus_diag_eq, Rmult_0_l, Rplus_0_r by reflexivity; reflexivity. }
    unfold absolute_angle_to, vfinite, fisfinite in TA. rsimp. cbn [negb andb orb] in TA.
    unfold magnitude in TA. rsimp. fold (norm (t_vel tip)) in TA.
    destruct (Reqb (norm (t_vel tip)) 0) eqn:E1; cbn [orb] in TA; [injection TA as <-; reflexivity|].
    apply Reqb_false in E1. injection TA as <-. unfold vdot, vdiv. rsimp.
    replace (vx (t_vel tip) / norm (t_vel tip) * (vx (t_vel tip) / norm (t_vel tip)) + vy (t_vel tip) / norm (t_vel tip) * (vy (t_vel tip) / norm (t_vel tip))) with 1.
    2:{ assert (NN : norm (t_vel tip) * norm (t_vel tip) = vx (t_vel tip) * vx (t_vel tip) + vy (t_vel tip) * vy (t_vel tip))
          by (apply sqrt_sqrt, Rplus_le_le_0_compat; apply Rle_0_sqr).
        replace (vx (t_vel tip) / norm (t_vel tip) * (vx (t_vel tip) / norm (t_vel tip)) + vy (t_vel tip) / norm (t_vel tip) * (vy (t_vel tip) / norm (t_vel tip)))
          with ((vx (t_vel tip) * vx (t_vel tip) + vy (t_vel tip) * vy (t_vel tip)) / (norm (t_vel tip) * norm (t_vel tip))) by (field; exact E1).
        rewrite <- NN. field. exact E1. }
    unfold std_clamp. rsimp. destruct (Rltb 1 (-1)) eqn:E3; [apply Rltb_true in E3; lra|].
    destruct (Rltb 1 1) eqn:E4; [apply Rltb_true in E4; lra|]. apply acos_1. }
  destruct (Rltb 0 (sp_max_angle sp)) eqn:MA; [|exact EN]. rewrite A0 in EN.
  replace (0 / sp_max_angle sp) with (IZR 0) in EN by (cbn; unfold Rdiv; ring). rewrite Zceil_IZR in EN. exact EN.
Qed.

(** With stroke-end prediction, smoothing and mitigation off: the prediction is
    what an Up at the position and time of the last input would give; if it is
    empty, such an Up gives a single result. *)
Theorem C25_prediction_is_lifting_the_pen : forall (A := real_arith) fuel hist s p i0 i rs rs' out pred es,
  after_stroke fuel hist s es -> ps_params s = Some p -> ps_last s = Some i0 ->
  p_prediction p = PredStrokeEnd -> wp_enabled (p_wobble p) = false ->
  lp_enabled (pp_loop (p_position p)) = false ->
  i_event i = EUp -> i_pos i = i_pos i0 -> i_time i = i_time i0 ->
  answers fuel hist [CPredict rs'] = Ret [RResults OkStatus pred] ->
  answers fuel hist [CUpdate i rs] = Ret [RResults OkStatus (rs ++ out)] ->
  (pred <> [] -> same_geometry out pred) /\ (pred = [] -> List.length out = 1%nat).
Proof.
  intros A fuel hist s p i0 i rs rs' out pred es AS P L PS W LP EV IP IT AP AN. subst A.
  destruct (end_predictor_state _ _ _ _ AS) as (m0 & rs0 & R0 & _ & _ & _ & EPR).
  destruct (on_spring_state _ _ _ _ AS) as (m1 & rs1 & R1 & _ & _ & _ & OS).
  rewrite R0 in R1. injection R1 as <- <-.
  assert (AF : after fuel hist s) by (destruct AS as (ma & rsa & Ra & Pa & _); exists ma, rsa; auto).
  destruct (accepted_update _ _ _ _ _ _ _ AF AN) as (m & r0 & m' & o & R & (T1 & T2 & _) & G & C & K & U & _).
  rewrite R0 in R. injection R as -> ->. apply app_inv_head in K. subst o. rewrite P in T1. rewrite L in T2. symmetry in T1.
  destruct (m_last m) as [lst|] eqn:ML; [|discriminate T2]. injection T2 as ->.
  pose proof (g_valid _ G p T1) as V.
  assert (CP : comp_params p m) by (apply C; [exact T1|left; congruence]).
  specialize (EPR p lst T1 eq_refl PS). destruct (OS p lst T1 eq_refl) as (d & es' & ws & _ & _ & _ & KW & _).
  destruct (KW W) as [_ LC]. unfold core_of in EPR, LC. cbn [co_last co_pred] in EPR, LC.
  assert (PO : prediction_on p = true) by (unfold prediction_on; rewrite PS; reflexivity). rewrite PO in EPR.
  destruct (accepted_predict _ _ _ _ _ _ AF AP) as (m2 & r2 & m2' & R2 & _ & _ & _ & PR).
  rewrite R0 in R2. injection R2 as <- <-.
  apply prd_ok in PR. destruct PR as (p' & pr & last' & ptips & lm & MP' & PR & ML' & PC & PMS & _).
  rewrite EPR in PR. injection PR as <-. cbn [pred_construct] in PC. injection PC as PC.
  destruct CP as (C1 & C2 & C3 & C4). rewrite LC, <- IP in PC.
  assert (LO : lp_enabled (l_params (m_loop m)) = false) by (rewrite C4; exact LP).
  destruct (model_stylus_off _ _ _ _ _ _ _ LO PMS) as [PG _].
  destruct (up_R fuel p m i m' out V T1 (conj C1 (conj C2 (conj C3 C4))) U EV) as (last0 & n & tips1 & tip1 & tip2 & tips2 & tips & ML0 & DL & NS & N & NB & ET & EP & ME & ETS & _ & EO).
  rewrite ML in ML0. injection ML0 as <-. specialize (EO LP).
  rewrite (steps_still _ _ _ _ _ _ IT NS) in ET. cbn in ET. subst tips1. cbn in EP. subst tip1. cbn [app] in ETS.
  change (ddiv (dofZ 1) (sp_rate (p_sampling p))) with (1 / sp_rate (p_sampling p)) in PC. rewrite ME in PC. cbn [snd] in PC.
  split.
  - intros NE. unfold same_geometry. rewrite EO, PG, ETS, <- PC. destruct tips2; [|reflexivity].
    exfalso. apply NE. subst ptips. apply map_eq_nil in PG. exact PG.
  - intros ->. cbn in PG. rewrite <- (map_length tip_of), EO, ETS. subst tips2. rewrite <- PG. reflexivity.
Qed.
