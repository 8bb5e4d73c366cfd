(** * Invariants of the modeler's components over all histories, for every
      arithmetic: the components' parameters agree with the modeler's, and what
      holds of every state a component passes through holds of its live state and
      of its saved state. *)
From Verif Require Export Props_API.
From Coq Require Import Lia.

Section Cons.
Context {A : Arith}.
Variable fuel : nat.

Lemma upd_pred_some : forall o pos t o', upd_pred o pos t = Ret o' -> (o = None <-> o' = None).
Proof.
  intros [p|] pos t o' H; cbn in H; [|inversion H; tauto].
  destruct (pred_update p pos t); cbn in H; inversion H. split; discriminate.
Qed.

Lemma wobble_update_params : forall w pos t w' c,
  wobble_update w pos t = Ret (w', c) ->
  w_params w' = w_params w /\ w_saved w' = w_saved w /\ w_save_active w' = w_save_active w.
Proof.
  intros w pos t w' c H. unfold wobble_update in H.
  destruct (wp_enabled (w_params w)); cbn [negb] in H; [|inversion H; auto].
  destruct (back _); [|discriminate]. bind_inv H. destruct (feqb (w_tsum x) f0); inversion H; subst; auto.
Qed.

Lemma stylus_update_params : forall s pos t pr ti o s',
  stylus_update s pos t pr ti o = Ret s' ->
  sm_params s' = sm_params s /\ sm_saved s' = sm_saved s /\ sm_save_active s' = sm_save_active s.
Proof.
  intros s pos t pr ti o s' H. unfold stylus_update in H.
  destruct (negb (sy_normal (sm_params s)) && _ && _ && _); [inversion H; auto|].
  destruct (match back (s_raw (sm_state s)) with Some _ => _ | None => _ end) as [v a].
  bind_inv H. inversion H; auto.
Qed.

Lemma loop_update_params : forall l v t l' x,
  loop_update l v t = (l', x) ->
  l_params l' = l_params l /\ l_saved l' = l_saved l /\ l_save_active l' = l_save_active l.
Proof.
  intros l v t l' x H. unfold loop_update in H.
  destruct (lp_enabled (l_params l)); cbn [negb] in H; inversion H; subst; auto.
Qed.

Lemma model_stylus_loop_params : forall tips sm lm x pt lm' out,
  model_stylus_loop fuel tips sm lm x pt = Ret (lm', out) ->
  l_params lm' = l_params lm /\ l_saved lm' = l_saved lm /\ l_save_active lm' = l_save_active lm.
Proof.
  induction tips as [|tip rest IH]; intros sm lm x pt lm' out H; cbn in H.
  - inversion H; auto.
  - bind_inv H. bind_inv H. destruct (loop_update lm (r_vel x1) (t_time tip)) as [l1 v1] eqn:LU.
    bind_inv H. destruct x2 as [l2 o2]. inversion H; subst.
    apply IH in E1. apply loop_update_params in LU. destruct E1 as (E1 & E2 & E3), LU as (L1 & L2 & L3).
    repeat split; congruence.
Qed.

Lemma model_stylus_params : forall tips sm lm pt lm' out,
  model_stylus fuel tips sm lm pt = Ret (lm', out) ->
  l_params lm' = l_params lm /\ l_saved lm' = l_saved lm /\ l_save_active lm' = l_save_active lm.
Proof. intros. eapply model_stylus_loop_params. exact H. Qed.

(** ** Parameters of the components *)
Definition comp_params (p : StrokeModelParams) (m : Modeler) : Prop :=
  w_params (m_wobble m) = p_wobble p /\ pm_params (m_pos m) = p_position p /\
  sm_params (m_stylus m) = p_stylus p /\ l_params (m_loop m) = pp_loop (p_position p).

Definition cons (m : Modeler) : Prop :=
  forall p, m_params m = Some p ->
  (m_last m <> None \/ (m_save_active m = true /\ m_saved_last m <> None)) -> comp_params p m.

Lemma cons0 : cons modeler0.
Proof. intros p H. discriminate. Qed.

Lemma cons_step : forall m c m' r, cons m -> step fuel m c = Ret (m', r) -> cons m'.
Proof.
  intros m c m' r C H. destruct c; cbn in H.
  - unfold reset_params in H. destruct (validate_params p) eqn:V; inversion H; subst; auto.
    intros q Q [K|[K _]]; cbn in *; [congruence|discriminate].
  - unfold reset_keep in H. destruct (m_params m) eqn:P; inversion H; subst; auto.
    intros q Q [K|[K _]]; cbn in *; [congruence|discriminate].
  - destruct (update fuel m i results) as [[[m1 s1] rs1]| |] eqn:U; cbn in H; try discriminate.
    inversion H; subst. apply update_inv in U. destruct U as (out & -> & U).
    destruct U; [assumption| | | |]; intros q Q K; cbn in Q; rewrite Q in *;
      match goal with HP : Some _ = Some _ |- _ => inversion HP; subst end.
    + repeat split; cbn; try reflexivity. apply stylus_update_params in H4. tauto.
    + destruct (C p Q) as (C1 & C2 & C3 & C4). { left. congruence. }
      apply wobble_update_params in H6. apply stylus_update_params in H7.
      destruct H6 as [H6 _], H7 as [H7 _]. repeat split; cbn; congruence.
    + destruct (C p Q) as (C1 & C2 & C3 & C4). { left. congruence. }
      apply wobble_update_params in H6. apply stylus_update_params in H7. apply model_stylus_params in H11.
      destruct H6 as [H6 _], H7 as [H7 _], H11 as [H11 _]. repeat split; cbn; congruence.
    + destruct (C p Q) as (C1 & C2 & C3 & C4). { left. congruence. }
      apply stylus_update_params in H9. apply model_stylus_params in H10.
      destruct H9 as [H9 _], H10 as [H10 _]. repeat split; cbn; congruence.
  - destruct (predict fuel m results) as [[[m1 s1] rs1]| |] eqn:U; cbn in H; try discriminate.
    inversion H; subst. apply predict_inv in U. destruct U; [assumption|].
    intros q Q K. apply C; assumption.
  - inversion H; subst. intros q Q K. cbn in *.
    destruct (C q Q) as (C1 & C2 & C3 & C4); [tauto|]. repeat split; assumption.
  - inversion H; subst. unfold restore. destruct (m_save_active m) eqn:SA; [|assumption].
    intros q Q K. cbn in *. destruct (C q Q) as (C1 & C2 & C3 & C4); [tauto|].
    unfold wobble_restore, pos_restore, stylus_restore, loop_restore.
    repeat split; cbn;
      [destruct (w_save_active _)|destruct (pm_saved _)|destruct (sm_save_active _)|destruct (l_save_active _)]; assumption.
Qed.

Lemma cons_run : forall cs m m' rs, cons m -> run fuel m cs = Ret (m', rs) -> cons m'.
Proof. apply (run_invariant fuel cons). intros. eapply cons_step; eauto. Qed.

(** ** The full state behind [after] *)
Lemma after_full : forall hist s, after fuel hist s ->
  exists m rs, run fuel modeler0 hist = Ret (m, rs) /\ tracks s m /\ good m /\ cons m.
Proof.
  intros hist s H. destruct (after_state fuel hist s H) as (m & rs & R & T & G).
  exists m, rs. repeat (split; [assumption|]). eapply cons_run; [apply cons0|eassumption].
Qed.

(** ** Accepted calls *)
Lemma accepted_update : forall hist s i rs st rs',
  after fuel hist s -> answers fuel hist [CUpdate i rs] = Ret [RResults st rs'] ->
  exists m r0 m' out, run fuel modeler0 hist = Ret (m, r0) /\ tracks s m /\ good m /\ cons m /\
    rs' = rs ++ out /\ upd fuel m i m' st out /\
    run fuel modeler0 (hist ++ [CUpdate i rs]) = Ret (m', r0 ++ [RResults st rs']).
Proof.
  intros hist s i rs st rs' H AN. destruct (after_full hist s H) as (m & r0 & R & T & G & C).
  apply answers1 in AN. destruct AN as (m1 & r1 & m' & r & R1 & S & Q & R2).
  rewrite R in R1. inversion R1; subst m1 r1. inversion Q; subst r.
  cbn in S. bind_inv S. destruct x as [[m2 s2] rs2]. inversion S; subst.
  apply update_inv in E. destruct E as (out & K & U). exists m, r0, m', out. auto 10.
Qed.

Lemma accepted_predict : forall hist s rs st rs',
  after fuel hist s -> answers fuel hist [CPredict rs] = Ret [RResults st rs'] ->
  exists m r0 m', run fuel modeler0 hist = Ret (m, r0) /\ tracks s m /\ good m /\ cons m /\
    prd fuel m m' st rs'.
Proof.
  intros hist s rs st rs' H AN. destruct (after_full hist s H) as (m & r0 & R & T & G & C).
  apply answers1 in AN. destruct AN as (m1 & r1 & m' & r & R1 & S & Q & R2).
  rewrite R in R1. inversion R1; subst m1 r1. inversion Q; subst r.
  cbn in S. bind_inv S. destruct x as [[m2 s2] rs2]. inversion S; subst.
  apply predict_inv in E. exists m, r0, m'. auto 10.
Qed.

Lemma upd_move : forall m i m' out, upd fuel m i m' OkStatus out -> i_event i = EMove ->
  exists p last w c sm n tip tips pred lm,
    m_params m = Some p /\ validate_input i = OkStatus /\ m_last m = Some last /\
    dltb (i_time i) (i_time (li_input last)) = false /\
    wobble_update (m_wobble m) (i_pos i) (i_time i) = Ret (w, c) /\
    stylus_update (m_stylus m) c (i_time i) (i_pressure i) (i_tilt i) (i_orient i) = Ret sm /\
    number_of_steps (pm_state (m_pos m)) (li_input last) i (p_sampling p) (p_position p) = Ret (IOk n) /\
    update_along_path (pm_params (m_pos m)) (pm_state (m_pos m)) (li_corrected last)
      (i_time (li_input last)) c (i_time i) n = Ret (tip, tips) /\
    upd_pred (m_predictor m) c (i_time i) = Ret pred /\
    model_stylus fuel tips sm (m_loop m) (i_time i) = Ret (lm, out) /\
    m' = mkModeler pred (m_params m) w (pos_with_state (m_pos m) tip) sm lm tips
           (Some (mkLast i c)) (m_saved_predictor m) (m_saved_last m) (m_save_active m).
Proof.
  intros m i m' out U E. inversion U; subst; try congruence.
  exists p, last, w, c, sm, n, tip, tips, pred, lm. auto 12.
Qed.

Lemma upd_up : forall m i m' out, upd fuel m i m' OkStatus out -> i_event i = EUp ->
  exists p last n tip1 tips1 tip2 tips2 sm lm,
    m_params m = Some p /\ validate_input i = OkStatus /\ m_last m = Some last /\
    dltb (i_time i) (i_time (li_input last)) = false /\
    number_of_steps (pm_state (m_pos m)) (li_input last) i (p_sampling p) (p_position p) = Ret (IOk n) /\
    update_along_path (pm_params (m_pos m)) (pm_state (m_pos m)) (li_corrected last)
      (i_time (li_input last)) (i_pos i) (i_time i) n = Ret (tip1, tips1) /\
    model_end_of_stroke (pm_params (m_pos m)) tip1 (i_pos i) (ddiv (dofZ 1) (sp_rate (p_sampling p)))
      (Z.to_nat (sp_max_iter (p_sampling p))) (sp_stop (p_sampling p)) = (tip2, tips2) /\
    stylus_update (m_stylus m) (i_pos i) (i_time i) (i_pressure i) (i_tilt i) (i_orient i) = Ret sm /\
    model_stylus fuel (match tips1 ++ tips2 with [] => [tip2] | l => l end) sm (m_loop m)
      (i_time (li_input last)) = Ret (lm, out) /\
    m' = mkModeler (m_predictor m) (m_params m) (m_wobble m) (pos_with_state (m_pos m) tip2) sm lm
         (match tips1 ++ tips2 with [] => [tip2] | l => l end) None
         (m_saved_predictor m) (m_saved_last m) (m_save_active m).
Proof.
  intros m i m' out U E. inversion U; subst; try congruence.
  exists p, last, n, tip1, tips1, tip2, tips2, sm, lm. auto 12.
Qed.

Lemma upd_down : forall m i m' out, upd fuel m i m' OkStatus out -> i_event i = EDown ->
  exists p sm pred,
    m_params m = Some p /\ validate_input i = OkStatus /\ m_last m = None /\
    stylus_update (stylus_reset (m_stylus m) (p_stylus p)) (i_pos i) (i_time i)
      (i_pressure i) (i_tilt i) (i_orient i) = Ret sm /\
    upd_pred (option_map pred_reset (m_predictor m)) (i_pos i) (i_time i) = Ret pred /\
    out = [down_result i] /\
    m' = mkModeler pred (m_params m) (wobble_reset (m_wobble m) (p_wobble p) (i_pos i) (i_time i))
         (pos_reset (mkTip (i_pos i) vzero vzero (i_time i)) (p_position p)) sm
         (loop_reset (m_loop m) (pp_loop (p_position p))) (m_buffer m)
         (Some (mkLast i (i_pos i))) (m_saved_predictor m) (m_saved_last m) (m_save_active m).
Proof.
  intros m i m' out U E. inversion U; subst; try congruence.
  exists p, sm, pred. auto 12.
Qed.

Lemma upd_other : forall m i m' out z, upd fuel m i m' OkStatus out -> i_event i = EOther z -> False.
Proof. intros m i m' out z U E. inversion U; congruence. Qed.

Lemma prd_ok : forall m m' out, prd fuel m m' OkStatus out ->
  exists p pr last tips lm,
    m_params m = Some p /\ m_predictor m = Some pr /\ m_last m = Some last /\
    pred_construct pr (pm_state (m_pos m)) = Ret tips /\
    model_stylus fuel tips (m_stylus m) (m_loop m) (i_time (li_input last)) = Ret (lm, out) /\
    m' = mkModeler (m_predictor m) (m_params m) (m_wobble m) (m_pos m) (m_stylus m) (m_loop m) tips
         (m_last m) (m_saved_predictor m) (m_saved_last m) (m_save_active m).
Proof.
  intros m m' out U. inversion U; subst; try congruence.
  exists p, pr, last, tips, lm. auto 12.
Qed.

(** ** Invariants of the stylus component *)
Section StylusInv.
Variable I : Input -> Prop.
Variable S : SState -> Prop.
Hypothesis S_step : forall sm i pos sm',
  I i -> validate_stylus (sm_params sm) = OkStatus -> (S (sm_state sm) \/ sm_state sm = sstate0) ->
  stylus_update sm pos (i_time i) (i_pressure i) (i_tilt i) (i_orient i) = Ret sm' -> S (sm_state sm').

Definition stylus_ok (m : Modeler) : Prop :=
  S (sm_state (m_stylus m)) /\ (sm_save_active (m_stylus m) = true -> S (sm_saved (m_stylus m))).

(** Calls whose input, if any, satisfies [I]. *)
Definition call_ok (c : call) : Prop := match c with CUpdate i _ => I i | _ => True end.

Lemma stylus_valid : forall m p, good m -> m_params m = Some p -> validate_stylus (p_stylus p) = OkStatus.
Proof. intros m p G MP. apply (validate_params_parts p). exact (g_valid _ G p MP). Qed.
Lemma stylus_valid_live : forall m p last, good m -> cons m -> m_params m = Some p -> m_last m = Some last ->
  validate_stylus (sm_params (m_stylus m)) = OkStatus.
Proof.
  intros m p last G C MP ML. destruct (C p MP) as (_ & _ & -> & _); [left; congruence|]. eapply stylus_valid; eassumption.
Qed.

Lemma stylus_ok_step : forall m c m' r, good m -> cons m -> stylus_ok m -> call_ok c ->
  step fuel m c = Ret (m', r) -> stylus_ok m'.
Proof.
  intros m c m' r G C [S1 S2] CI H. destruct c; cbn in H.
  - unfold reset_params in H. destruct (validate_params p) eqn:V; inversion H; subst; split; assumption.
  - unfold reset_keep in H. destruct (m_params m) eqn:P; inversion H; subst; split; assumption.
  - destruct (update fuel m i results) as [[[m1 s1] rs1]| |] eqn:U; cbn in H; try discriminate.
    inversion H; subst. apply update_inv in U. destruct U as (out & -> & U). cbn in CI.
    destruct U as [st N|p sm pred MP VI EV ML SU UP|p last w cc sm e MP VI EV ML IE DL WU SU NS NE
      |p last w cc sm n tip tips pred lm out MP VI EV ML IE DL WU SU NS UA UP MS
      |p last n tip1 tips1 tip2 tips2 sm lm out MP VI EV ML IE DL NS UA ME SU MS]; [split; assumption| | | |];
      (split; cbn; [|pose proof (stylus_update_params _ _ _ _ _ _ _ SU) as (_ & Q1 & Q2)]).
    + eapply S_step; [exact CI| | |exact SU]; [exact (stylus_valid m p G MP)|right; reflexivity].
    + rewrite Q2. discriminate.
    + eapply S_step; [exact CI| | |exact SU]; [exact (stylus_valid_live m p last G C MP ML)|left; assumption].
    + rewrite Q1, Q2. assumption.
    + eapply S_step; [exact CI| | |exact SU]; [exact (stylus_valid_live m p last G C MP ML)|left; assumption].
    + rewrite Q1, Q2. assumption.
    + eapply S_step; [exact CI| | |exact SU]; [exact (stylus_valid_live m p last G C MP ML)|left; assumption].
    + rewrite Q1, Q2. assumption.
  - destruct (predict fuel m results) as [[[m1 s1] rs1]| |] eqn:U; cbn in H; try discriminate.
    inversion H; subst. apply predict_inv in U. destruct U; split; assumption.
  - inversion H; subst. split; cbn; auto.
  - inversion H; subst. unfold restore. destruct (m_save_active m); [|split; assumption].
    unfold stylus_restore. split; cbn; destruct (sm_save_active (m_stylus m)) eqn:SA; cbn; auto. rewrite SA. discriminate.
Qed.

(** After an accepted Down, whatever was before. *)
Lemma stylus_ok_down : forall m i rs m' out, good m ->
  I i -> i_event i = EDown -> update fuel m i rs = Ret (m', OkStatus, out) -> stylus_ok m'.
Proof.
  intros m i rs m' out G HI ED U. apply update_inv in U. destruct U as (o & _ & U).
  destruct (upd_down m i m' o U ED) as (p & sm & pred & MP & _ & _ & SU & _ & _ & ->).
  split; cbn.
  - eapply S_step; [exact HI| | |exact SU]; [exact (stylus_valid m p G MP)|right; reflexivity].
  - apply stylus_update_params in SU. destruct SU as (_ & _ & ->). cbn. discriminate.
Qed.

Lemma stylus_ok_run : forall cs m m' rs, good m -> cons m -> stylus_ok m -> Forall call_ok cs ->
  run fuel m cs = Ret (m', rs) -> stylus_ok m'.
Proof.
  induction cs as [|c cs IH]; intros m m' rs G C SO F R; cbn in R.
  - inversion R; subst; assumption.
  - inversion F; subst. bind_inv R. destruct x as [m1 r]. bind_inv R. destruct x as [m2 r2]. inversion R; subst.
    eapply IH; [eapply good_step; eauto|eapply cons_step; eauto| |eassumption|eassumption]. eapply stylus_ok_step; eauto.
Qed.
End StylusInv.

End Cons.
