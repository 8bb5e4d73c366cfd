(** * The same history with loop contraction mitigation switched off (exact
      arithmetic): everything but positions, velocities and accelerations is the
      same. *)
From Coq Require Import ZArith Bool List Reals Lra Lia.
From Flocq Require Import Core.Raux.
From Verif Require Export RFacts Props_Params.
Import ListNotations.
Open Scope R_scope.

(** ** Specification *)
Section Without.
Context {A : Arith}.
Definition loop_off (lp : LoopParams) : LoopParams :=
  mkLoopParams false (lp_speed_lower lp) (lp_speed_upper lp) (lp_strength_lower lp) (lp_strength_upper lp)
    (lp_window lp) (lp_min_samples lp).
Definition position_off (pp : PositionParams) : PositionParams :=
  mkPositionParams (pp_spring pp) (pp_drag pp) (loop_off (pp_loop pp)).
(** The same parameters, mitigation switched off. *)
Definition without_mitigation (p : StrokeModelParams) : StrokeModelParams :=
  mkParams (p_wobble p) (position_off (p_position p)) (p_sampling p) (p_stylus p) (p_prediction p).
(** The same call; a Reset to valid parameters switches mitigation off. *)
Definition unmitigated (c : call) : call :=
  match c with
  | CReset p => match validate_params p with OkStatus => CReset (without_mitigation p) | _ => CReset p end
  | _ => c
  end.
(** Same time, pressure, tilt and orientation. *)
Definition same_reading (a b : Result) : Prop :=
  r_time a = r_time b /\ r_pressure a = r_pressure b /\ r_tilt a = r_tilt b /\ r_orient a = r_orient b.
Inductive reply_reading : reply -> reply -> Prop :=
| RRStatus s : reply_reading (RStatus s) (RStatus s)
| RRResults s a b : Forall2 same_reading a b -> reply_reading (RResults s a) (RResults s b)
| RRVoid : reply_reading RVoid RVoid.
End Without.

(** ** The functions *)
Lemma off_valid : forall p : StrokeModelParams (A := real_arith), validate_params p = OkStatus -> validate_params (without_mitigation p) = OkStatus.
Proof.
  intros p V. unfold validate_params in *. cbn [without_mitigation p_wobble p_position p_sampling p_stylus p_prediction position_off pp_loop loop_off lp_enabled andb].
  match type of V with (if ?b then _ else _) = _ => destruct b; [discriminate V|] end.
  apply and_then_ok in V. destruct V as [V1 V]. apply and_then_ok in V. destruct V as [V2 V].
  rewrite V1. unfold and_then at 1. unfold validate_position in *. apply and_then_ok in V2. destruct V2 as [_ V2].
  change (validate_loop (pp_loop (position_off (p_position p)))) with OkStatus. unfold and_then at 2. cbn [position_off pp_spring pp_drag].
  rewrite V2. exact V.
Qed.
Lemma off_off : forall p : StrokeModelParams (A := real_arith), lp_enabled (pp_loop (p_position p)) = false -> without_mitigation p = p.
Proof.
  intros [w [sp dr [en a b c d e f]] sa sy pr] H. cbn in *. subst en. reflexivity.
Qed.

Definition pred_off (a : Predictor (A := real_arith)) : Predictor :=
  match a with PStrokeEnd pp sp l => PStrokeEnd (position_off pp) sp l | PKal k => PKal k end.

Lemma path_loop_off : forall k p s sp st ep et n i,
  path_loop (A := real_arith) (position_off p) s sp st ep et n i k = path_loop p s sp st ep et n i k.
Proof.
  induction k as [|k IH]; intros; cbn [path_loop]; [reflexivity|].
  change (tip_update (A := real_arith) (position_off p)) with (tip_update (A := real_arith) p). rewrite IH. reflexivity.
Qed.
Lemma update_along_path_off : forall p s sp st ep et n,
  update_along_path (A := real_arith) (position_off p) s sp st ep et n = update_along_path p s sp st ep et n.
Proof. intros. unfold update_along_path. rewrite path_loop_off. reflexivity. Qed.
Lemma end_of_stroke_off : forall k p s a d st,
  model_end_of_stroke (A := real_arith) (position_off p) s a d k st = model_end_of_stroke p s a d k st.
Proof.
  induction k as [|k IH]; intros; cbn [model_end_of_stroke]; [reflexivity|].
  change (tip_update (A := real_arith) (position_off p)) with (tip_update (A := real_arith) p).
  rewrite !IH. reflexivity.
Qed.
Lemma pred_update_off : forall a pos t,
  pred_update (pred_off a) pos t = (let* x := pred_update a pos t in Ret (pred_off x)).
Proof. intros [pp sp l|k] pos t; cbn; [reflexivity|]. destruct (kpred_update k pos t); reflexivity. Qed.
Lemma pred_reset_off : forall a, pred_reset (pred_off a) = pred_off (pred_reset a).
Proof. intros [pp sp l|k]; reflexivity. Qed.
Lemma pred_construct_off : forall a tip, pred_construct (pred_off a) tip = pred_construct a tip.
Proof. intros [pp sp [l|]|k] tip; cbn [pred_off pred_construct]; try reflexivity. rewrite end_of_stroke_off. reflexivity. Qed.

Lemma interp_f_same : forall a x : R, interp_f (A := real_arith) a a x = a.
Proof. intros a x. unfold interp_f. rsimp. ring. Qed.
Lemma interp_angle_any : forall fuel (o x y : R), interp_angle (A := real_arith) fuel o o x = interp_angle (A := real_arith) fuel o o y.
Proof.
  intros fuel o x y. unfold interp_angle. destruct (normalize_angle (A := real_arith) fuel o) as [a| |]; cbn [obind]; try reflexivity.
  assert (S : forall z : R, (if dltb (Arith := real_arith) (f2d (fsub a a)) (dneg kPi) then d2f (dadd (f2d a) twoPi)
    else if dltb (Arith := real_arith) kPi (f2d (fsub a a)) then d2f (dsub (f2d a) twoPi) else z) = z).
  { intros z. rsimp. rewrite (proj2 (Rltb_false _ _)), (proj2 (Rltb_false _ _)); pose proof PI_RGT_0; try reflexivity; lra. }
  rewrite (S a), !interp_f_same. reflexivity.
Qed.
Lemma interp_result_any : forall fuel r0 tip v, (r_time r0 = t_time tip \/ v = 1) ->
  orel same_reading (interp_result (A := real_arith) fuel r0 (make_result tip r0) v) (interp_result fuel r0 (make_result tip r0) f1).
Proof.
  intros fuel r0 tip v T. unfold interp_result. cbn [make_result r_pos r_vel r_acc r_time r_pressure r_tilt r_orient].
  rewrite (interp_angle_any fuel (r_orient r0) v (f1 (A := real_arith))).
  match goal with |- orel _ (let* orient := ?e in _) _ => destruct e as [o| |] end; cbn [obind orel]; try exact I; try reflexivity.
  unfold same_reading. cbn [r_time r_pressure r_tilt r_orient]. rewrite !interp_f_same.
  split; [|auto]. destruct T as [->| ->]; [rewrite !interp_t_same|]; reflexivity.
Qed.

Lemma model_stylus_loop_calm : forall fuel ln sm, lp_enabled (l_params ln) = false ->
  forall tips lm v pt, (s_raw (sm_state sm) <> [] \/ lp_enabled (l_params lm) = false /\ v = 1) ->
  orel (fun a b => Forall2 same_reading (snd a) (snd b))
    (model_stylus_loop (A := real_arith) fuel tips sm lm v pt) (model_stylus_loop fuel tips sm ln f1 pt).
Proof.
  intros fuel ln sm OFF. induction tips as [|tip rest IH]; intros lm v pt C; cbn [model_stylus_loop]; [constructor|].
  destruct (stylus_query fuel sm tip (get_stroke_normal tip pt)) as [r0| |] eqn:Q; cbn [obind orel]; try exact I; try reflexivity.
  assert (T : r_time r0 = t_time tip \/ v = 1) by (destruct C as [C|[_ C]]; [left; eapply stylus_query_time; eassumption|right; exact C]).
  pose proof (interp_result_any fuel r0 tip v T) as IR.
  destruct (interp_result fuel r0 (make_result tip r0) v) as [x| |], (interp_result fuel r0 (make_result tip r0) f1) as [y| |]; cbn [orel] in IR; try contradiction; cbn [obind orel]; auto.
  destruct (loop_update lm (r_vel x) (t_time tip)) as [l1 v1] eqn:LU.
  destruct (loop_update ln (r_vel y) (t_time tip)) as [l2 v2] eqn:LN. destruct (loop_update_off _ _ _ _ _ OFF LN) as [-> ->].
  assert (C1 : s_raw (sm_state sm) <> [] \/ lp_enabled (l_params l1) = false /\ v1 = 1).
  { destruct C as [C|[C _]]; [left; exact C|right]. destruct (loop_update_off _ _ _ _ _ C LU) as [-> ->]. split; [exact C|reflexivity]. }
  specialize (IH l1 v1 (t_time tip) C1).
  destruct (model_stylus_loop fuel rest sm l1 v1 (t_time tip)) as [[? ?]| |], (model_stylus_loop fuel rest sm ln f1 (t_time tip)) as [[? ?]| |];
    cbn [orel obind snd] in *; try contradiction; auto.
Qed.
Lemma model_stylus_calm : forall fuel ln sm tips lm pt, lp_enabled (l_params ln) = false ->
  (lp_enabled (l_params lm) = true -> s_raw (sm_state sm) <> []) ->
  orel (fun a b => Forall2 same_reading (snd a) (snd b) /\ l_params (fst b) = l_params ln)
    (model_stylus (A := real_arith) fuel tips sm lm pt) (model_stylus fuel tips sm ln pt).
Proof.
  intros fuel ln sm tips lm pt OFF NE. unfold model_stylus. unfold loop_get at 2. rewrite loop_value_off by exact OFF.
  assert (C : s_raw (sm_state sm) <> [] \/ lp_enabled (l_params lm) = false /\ loop_get lm = 1).
  { destruct (lp_enabled (l_params lm)) eqn:E; [left; apply NE; reflexivity|right]. split; [reflexivity|]. unfold loop_get. rewrite loop_value_off by exact E. reflexivity. }
  pose proof (model_stylus_loop_calm fuel ln sm OFF tips lm (loop_get lm) pt C) as K.
  destruct (model_stylus_loop fuel tips sm lm _ pt) as [[l1 o1]| |], (model_stylus_loop fuel tips sm ln f1 pt) as [[l2 o2]| |] eqn:E2; cbn [orel snd fst] in *; auto.
  split; [exact K|]. destruct (model_stylus_loop_off _ _ _ _ _ _ _ OFF E2) as [_ ->]. reflexivity.
Qed.

(** ** The modelers *)
(** During a stroke there is at least one input in memory. *)
Definition filled (m : Modeler (A := real_arith)) : Prop :=
  forall p, m_params m = Some p -> sy_normal (p_stylus p) = true ->
  (m_last m <> None \/ (m_save_active m = true /\ m_saved_last m <> None) -> s_raw (sm_state (m_stylus m)) <> []) /\
  (m_save_active m = true -> m_saved_last m <> None -> sm_save_active (m_stylus m) = true -> s_raw (sm_saved (m_stylus m)) <> []).

Lemma filled0 : filled modeler0.
Proof. intros p H. discriminate H. Qed.

Lemma stylus_update_saved : forall sm pos t pr ti o sm', stylus_update (A := real_arith) sm pos t pr ti o = Ret sm' ->
  sm_saved sm' = sm_saved sm /\ sm_save_active sm' = sm_save_active sm.
Proof.
  intros sm pos t pr ti o sm' H. unfold stylus_update in H. destruct (negb _ && _ && _ && _); [injection H as <-; auto|].
  destruct (match back _ with Some _ => _ | None => _ end). bind_inv H. injection H as <-. auto.
Qed.

Lemma filled_step : forall fuel m c m' r, good m -> cons m -> filled m -> step fuel m c = Ret (m', r) -> filled m'.
Proof.
  intros fuel m c m' r G C FI H. destruct c; cbn [step] in H.
  - unfold reset_params in H. destruct (validate_params p) eqn:V; injection H as <- <-; try exact FI.
    intros q Q N. cbn [m_params m_last m_save_active m_saved_last] in *. split; [intros [K|[K _]]; [congruence|discriminate K]|intros K; discriminate K].
  - unfold reset_keep in H. destruct (m_params m) eqn:P; injection H as <- <-; try exact FI.
    intros q Q N. cbn [m_params m_last m_save_active m_saved_last] in *. split; [intros [K|[K _]]; [congruence|discriminate K]|intros K; discriminate K].
  - destruct (update fuel m i results) as [[[m1 s1] rs1]| |] eqn:U; cbn [obind] in H; try discriminate H.
    injection H as <- <-. apply update_inv in U. destruct U as (out & -> & U).
    assert (KEY : forall p last sm c, m_params m = Some p -> m_last m = Some last -> sy_normal (p_stylus p) = true ->
      stylus_update (m_stylus m) c (i_time i) (i_pressure i) (i_tilt i) (i_orient i) = Ret sm ->
      s_raw (sm_state sm) <> [] /\ sm_saved sm = sm_saved (m_stylus m) /\ sm_save_active sm = sm_save_active (m_stylus m)).
    { intros p last sm c MP ML N SU. destruct (C p MP ltac:(left; congruence)) as (_ & _ & C3 & _).
      pose proof (stylus_valid m p G MP) as V. split; [|eapply stylus_update_saved; exact SU].
      eapply stylus_update_nonempty; [| |exact SU]; rewrite C3; assumption. }
    destruct U; [exact FI| | | |]; intros q Q N; cbn [m_params m_last m_save_active m_saved_last m_stylus] in *;
      match goal with HP : m_params m = Some ?x |- _ => assert (x = q) by congruence; subst x end.
    + split.
      * intros _. eapply stylus_update_nonempty; [| |exact H3]; [exact (stylus_valid m q G H)|exact N].
      * intros _ _ K. destruct (stylus_update_saved _ _ _ _ _ _ _ H3) as [_ E]. rewrite E in K. discriminate K.
    + destruct (KEY _ _ _ _ H H2 N H6) as (K1 & K2 & K3). split; [intros _; exact K1|]. rewrite K2, K3. apply (FI q Q N).
    + destruct (KEY _ _ _ _ H H2 N H6) as (K1 & K2 & K3). split; [intros _; exact K1|]. rewrite K2, K3. apply (FI q Q N).
    + destruct (KEY _ _ _ _ H H2 N H8) as (K1 & K2 & K3). split; [intros _; exact K1|]. rewrite K2, K3. apply (FI q Q N).
  - destruct (predict fuel m results) as [[[m1 s1] rs1]| |] eqn:U; cbn [obind] in H; try discriminate H.
    injection H as <- <-. apply predict_inv in U. destruct U; exact FI.
  - injection H as <- <-. intros q Q N. cbn [save m_params m_last m_save_active m_saved_last m_stylus stylus_save sm_state sm_saved sm_save_active] in *.
    destruct (FI q Q N) as [F1 _]. split; [intros [K|[_ K]]; apply F1; left; exact K|intros _ K _; apply F1; left; exact K].
  - injection H as <- <-. unfold restore. destruct (m_save_active m) eqn:SA; [|exact FI].
    intros q Q N. cbn [m_params m_last m_save_active m_saved_last m_stylus] in *. destruct (FI q Q N) as [F1 F2]. rewrite SA in *.
    unfold stylus_restore. destruct (sm_save_active (m_stylus m)) eqn:SS; cbn [sm_state sm_saved sm_save_active].
    + split; [intros K; apply F2; try reflexivity; tauto|]. intros _ K _. apply F2; auto.
    + split; [intros K; apply F1; right; tauto|]. rewrite SS. intros _ _ K. discriminate K.
Qed.

Record calm (m n : Modeler (A := real_arith)) : Prop := mkCalm {
  ca_pred : m_predictor n = option_map pred_off (m_predictor m);
  ca_par : m_params n = option_map without_mitigation (m_params m);
  ca_wob : m_wobble n = m_wobble m;
  ca_pst : pm_state (m_pos n) = pm_state (m_pos m);
  ca_psv : pm_saved (m_pos n) = pm_saved (m_pos m);
  ca_sty : m_stylus n = m_stylus m;
  ca_last : m_last n = m_last m;
  ca_sp : m_saved_predictor n = option_map pred_off (m_saved_predictor m);
  ca_sl : m_saved_last n = m_saved_last m;
  ca_sa : m_save_active n = m_save_active m
}.
Lemma calm0 : calm modeler0 modeler0.
Proof. constructor; reflexivity. Qed.

Definition cr (x y : upd_result) : Prop :=
  let '(m, s, r) := x in let '(n, t, q) := y in calm m n /\ s = t /\ Forall2 same_reading r q.
Lemma same_reading_refl : forall l, Forall2 (same_reading (A := real_arith)) l l.
Proof. induction l; constructor; auto. repeat split. Qed.

Lemma steps_off : forall tip a b sp p, number_of_steps (A := real_arith) tip a b sp (position_off p) = number_of_steps tip a b sp p.
Proof. reflexivity. Qed.

Ltac nope := solve [cbn in *; auto | cbn in *; contradiction | cbn in *; congruence].

Lemma pred_update_calm : forall o pos t,
  match option_map pred_off o with None => Ret None | Some pr => let* pr' := pred_update pr pos t in Ret (Some pr') end =
  (let* x := match o with None => Ret None | Some pr => let* pr' := pred_update pr pos t in Ret (Some pr') end in Ret (option_map pred_off x)).
Proof.
  intros [a|] pos t; cbn [option_map obind]; [|reflexivity]. rewrite pred_update_off.
  destruct (pred_update a pos t); reflexivity.
Qed.

Lemma process_down_calm : forall m n p i rs, calm m n ->
  orel cr (process_down m p i rs) (process_down n (without_mitigation p) i rs).
Proof.
  intros m n p i rs [C1 C2 C3 C4 C5 C6 C7 C8 C9 C10]. unfold process_down. rewrite C7.
  destruct (m_last m) as [l|] eqn:L; [cbn; split; [constructor; congruence|split; [reflexivity|apply same_reading_refl]]|].
  rewrite C6, C1. cbn [without_mitigation p_stylus].
  destruct (stylus_update _ _ _ _ _ _) as [sm| |]; cbn [obind]; try nope.
  assert (PR : match option_map pred_off (m_predictor m) with None => Ret None | Some pr => let* pr' := pred_update (pred_reset pr) (i_pos i) (i_time i) in Ret (Some pr') end =
    (let* x := match m_predictor m with None => Ret None | Some pr => let* pr' := pred_update (pred_reset pr) (i_pos i) (i_time i) in Ret (Some pr') end in Ret (option_map pred_off x))).
  { destruct (m_predictor m) as [a|]; cbn [option_map obind]; [|reflexivity]. rewrite pred_reset_off, pred_update_off.
    destruct (pred_update (pred_reset a) _ _); reflexivity. }
  rewrite PR. destruct (match m_predictor m with None => _ | Some _ => _ end) as [x| |]; cbn [obind orel]; try nope.
  cbn [cr]. split; [|split; [reflexivity|apply same_reading_refl]].
  constructor; cbn; try assumption; try reflexivity. rewrite C3. reflexivity.
Qed.

Lemma in_stroke_off : forall m n p last, calm m n -> cons n -> m_params m = Some p -> m_last m = Some last ->
  pm_params (m_pos n) = position_off (p_position p) /\ lp_enabled (l_params (m_loop n)) = false.
Proof.
  intros m n p last [C1 C2 C3 C4 C5 C6 C7 C8 C9 C10] CN MP ML. rewrite MP in C2.
  destruct (CN _ C2 ltac:(left; congruence)) as (_ & K1 & _ & K2). rewrite K1, K2. auto.
Qed.

Lemma process_move_calm : forall fuel m n p i rs, calm m n -> good m -> cons m -> cons n -> m_params m = Some p ->
  orel cr (process_move fuel m p i rs) (process_move fuel n (without_mitigation p) i rs).
Proof.
  intros fuel m n p i rs CA G CM CN MP. pose proof CA as [C1 C2 C3 C4 C5 C6 C7 C8 C9 C10].
  unfold process_move. rewrite C7. destruct (m_last m) as [l|] eqn:ML.
  2:{ cbn; split; [constructor; congruence|split; [reflexivity|apply same_reading_refl]]. }
  destruct (in_stroke_off _ _ _ _ CA CN MP ML) as [K1 K2]. destruct (CM p MP ltac:(left; congruence)) as (_ & P2 & P3 & P4).
  rewrite C3. destruct (wobble_update _ _ _) as [[w c]| |]; cbn [obind]; try nope.
  rewrite C6. destruct (stylus_update _ _ _ _ _ _) as [sm| |] eqn:SU; cbn [obind]; try nope.
  rewrite C4. cbn [without_mitigation p_sampling p_position]. rewrite steps_off.
  destruct (number_of_steps _ _ _ _ _) as [[k|e]| |]; cbn [obind]; try nope.
  - rewrite K1, P2, update_along_path_off. destruct (update_along_path _ _ _ _ _ _ _) as [[tip tips]| |]; cbn [obind]; try nope.
    rewrite C1, pred_update_calm. destruct (match m_predictor m with None => _ | Some _ => _ end) as [pr| |]; cbn [obind]; try nope.
    assert (NE : lp_enabled (l_params (m_loop m)) = true -> s_raw (sm_state sm) <> []).
    { rewrite P4. intros EN. eapply stylus_update_nonempty; [| |exact SU]; rewrite P3; [exact (stylus_valid m p G MP)|].
      apply mitigation_normal; [exact (g_valid _ G p MP)|exact EN]. }
    pose proof (model_stylus_calm fuel (m_loop n) sm tips (m_loop m) (i_time i) K2 NE) as MS.
    destruct (model_stylus fuel tips sm (m_loop m) (i_time i)) as [[l1 o1]| |], (model_stylus fuel tips sm (m_loop n) (i_time i)) as [[l2 o2]| |]; try nope.
    cbn [orel obind fst snd cr] in *. split; [constructor; cbn; auto|]. split; [reflexivity|]. apply Forall2_app; [apply same_reading_refl|apply MS].
  - cbn [orel cr]. split; [constructor; cbn; auto|]. split; [reflexivity|apply same_reading_refl].
Qed.

Lemma process_up_calm : forall fuel m n p i rs, calm m n -> good m -> cons m -> cons n -> m_params m = Some p ->
  orel cr (process_up fuel m p i rs) (process_up fuel n (without_mitigation p) i rs).
Proof.
  intros fuel m n p i rs CA G CM CN MP. pose proof CA as [C1 C2 C3 C4 C5 C6 C7 C8 C9 C10].
  assert (KEEP : forall e, orel cr (Ret (m, e, rs)) (Ret (n, e, rs))) by (intros e; cbn; split; [exact CA|split; [reflexivity|apply same_reading_refl]]).
  unfold process_up. rewrite C7. destruct (m_last m) as [l|] eqn:ML; [|apply KEEP].
  destruct (in_stroke_off _ _ _ _ CA CN MP ML) as [K1 K2]. destruct (CM p MP ltac:(left; congruence)) as (_ & P2 & P3 & P4).
  rewrite C4. cbn [without_mitigation p_sampling p_position]. rewrite steps_off.
  destruct (number_of_steps _ _ _ _ _) as [[k|e]| |]; cbn [obind]; try nope; try (apply KEEP).
  rewrite K1, P2, update_along_path_off. destruct (update_along_path _ _ _ _ _ _ _) as [[tip tips]| |]; cbn [obind]; try nope.
  rewrite end_of_stroke_off. destruct (model_end_of_stroke _ _ _ _ _ _) as [tip2 tips2].
  rewrite C6. destruct (stylus_update _ _ _ _ _ _) as [sm| |] eqn:SU; cbn [obind]; try nope.
  assert (NE : lp_enabled (l_params (m_loop m)) = true -> s_raw (sm_state sm) <> []).
  { rewrite P4. intros EN. eapply stylus_update_nonempty; [| |exact SU]; rewrite P3; [exact (stylus_valid m p G MP)|].
    apply mitigation_normal; [exact (g_valid _ G p MP)|exact EN]. }
  match goal with |- context [model_stylus fuel ?ts sm (m_loop m) ?t] =>
    pose proof (model_stylus_calm fuel (m_loop n) sm ts (m_loop m) t K2 NE) as MS;
    destruct (model_stylus fuel ts sm (m_loop m) t) as [[l1 o1]| |], (model_stylus fuel ts sm (m_loop n) t) as [[l2 o2]| |] end; try nope.
  cbn [orel obind fst snd cr] in *. split; [constructor; cbn; auto|]. split; [reflexivity|]. apply Forall2_app; [apply same_reading_refl|apply MS].
Qed.

Lemma update_calm : forall fuel m n i rs, calm m n -> good m -> cons m -> cons n ->
  orel cr (update fuel m i rs) (update fuel n i rs).
Proof.
  intros fuel m n i rs CA G CM CN.
  assert (KEEP : forall e, orel cr (Ret (m, e, rs)) (Ret (n, e, rs))) by (intros e; cbn; split; [exact CA|split; [reflexivity|apply same_reading_refl]]).
  unfold update. rewrite (ca_par _ _ CA). destruct (m_params m) as [p|] eqn:MP; cbn [option_map]; [|apply KEEP].
  destruct (validate_input i); try apply KEEP. rewrite (ca_last _ _ CA).
  assert (K : orel cr
    match i_event i with
    | EDown => process_down m p i rs | EMove => process_move fuel m p i rs
    | EUp => process_up fuel m p i rs | EOther _ => Ret (m, InvalidArgument msg_event, rs) end
    match i_event i with
    | EDown => process_down n (without_mitigation p) i rs | EMove => process_move fuel n (without_mitigation p) i rs
    | EUp => process_up fuel n (without_mitigation p) i rs | EOther _ => Ret (n, InvalidArgument msg_event, rs) end).
  { destruct (i_event i); [apply process_down_calm|apply process_move_calm|apply process_up_calm|apply KEEP]; assumption. }
  destruct (m_last m); [|exact K]. destruct (input_eqb _ _); [apply KEEP|]. destruct (dltb _ _); [apply KEEP|]. exact K.
Qed.

Lemma step_calm : forall fuel m n c, calm m n -> good m -> cons m -> cons n -> filled m ->
  orel (fun x y => calm (fst x) (fst y) /\ reply_reading (snd x) (snd y)) (step fuel m c) (step fuel n (unmitigated c)).
Proof.
  intros fuel m n c CA G CM CN FI. pose proof CA as [C1 C2 C3 C4 C5 C6 C7 C8 C9 C10]. destruct c; cbn [unmitigated step].
  - destruct (validate_params p) eqn:V; cbn [step]; unfold reset_params; rewrite ?V; try (rewrite (off_valid p V));
      cbn [orel fst snd]; (split; [|constructor]); try exact CA.
    constructor; cbn [m_predictor m_params m_wobble m_pos m_stylus m_loop m_last m_saved_predictor m_saved_last m_save_active]; auto.
    unfold make_predictor. cbn [without_mitigation p_prediction p_sampling p_position]. destruct (p_prediction p); reflexivity.
  - unfold reset_keep. rewrite C2. destruct (m_params m) as [p|] eqn:MP; cbn [option_map orel fst snd]; (split; [|constructor]); [|exact CA].
    constructor; cbn [m_predictor m_params m_wobble m_pos m_stylus m_loop m_last m_saved_predictor m_saved_last m_save_active]; auto.
  - pose proof (update_calm fuel m n i results CA G CM CN) as U.
    destruct (update fuel m i results) as [[[m1 s1] r1]| |], (update fuel n i results) as [[[m2 s2] r2]| |]; try nope.
    cbn [orel cr obind fst snd] in *. destruct U as (U1 & -> & U3). split; [exact U1|constructor; exact U3].
  - unfold predict. rewrite C2, C1, C7. destruct (m_params m) as [p|] eqn:MP; cbn [option_map].
    2:{ cbn. split; [exact CA|constructor; constructor]. }
    destruct (m_predictor m) as [pr|] eqn:PR; cbn [option_map]; [|cbn; split; [exact CA|constructor; constructor]].
    destruct (m_last m) as [lst|] eqn:ML; [|cbn; split; [exact CA|constructor; constructor]].
    destruct (in_stroke_off _ _ _ _ CA CN MP ML) as [K1 K2]. destruct (CM p MP ltac:(left; congruence)) as (_ & P2 & P3 & P4).
    rewrite pred_construct_off, C4, C6. destruct (pred_construct _ _) as [tips| |]; cbn [obind]; try nope.
    assert (NE : lp_enabled (l_params (m_loop m)) = true -> s_raw (sm_state (m_stylus m)) <> []).
    { rewrite P4. intros EN. apply (FI p MP (mitigation_normal p (g_valid _ G p MP) EN)). left. congruence. }
    pose proof (model_stylus_calm fuel (m_loop n) (m_stylus m) tips (m_loop m) (i_time (li_input lst)) K2 NE) as MS.
    destruct (model_stylus fuel tips (m_stylus m) (m_loop m) _) as [[l1 o1]| |], (model_stylus fuel tips (m_stylus m) (m_loop n) _) as [[l2 o2]| |]; try nope.
    cbn [orel obind fst snd] in *. split; [|constructor; apply MS]. constructor; cbn [m_predictor m_params m_wobble m_pos m_stylus m_loop m_last m_saved_predictor m_saved_last m_save_active]; auto.
  - cbn [orel fst snd]. split; [|constructor]. unfold save.
    constructor; cbn [m_predictor m_params m_wobble m_pos m_stylus m_loop m_last m_saved_predictor m_saved_last m_save_active]; auto; try congruence.
    + unfold pos_save. cbn [pm_state pm_saved]. rewrite ?C4; reflexivity.
    + rewrite C1, C8. destruct (m_predictor m); reflexivity.
  - cbn [orel fst snd]. split; [|constructor]. unfold restore. rewrite C10. destruct (m_save_active m) eqn:SA; [|exact CA].
    constructor; cbn [m_predictor m_params m_wobble m_pos m_stylus m_loop m_last m_saved_predictor m_saved_last m_save_active]; auto; try congruence.
    + rewrite C1, C8. destruct (m_saved_predictor m); reflexivity.
    + unfold pos_restore. rewrite C5. destruct (pm_saved (m_pos m)); cbn [pm_state]; [reflexivity|exact C4].
    + unfold pos_restore. rewrite C5. destruct (pm_saved (m_pos m)) eqn:PV; cbn [pm_saved]; [reflexivity|rewrite C5, PV; reflexivity].
Qed.

Lemma run_calm : forall fuel cs m n, calm m n -> good m -> cons m -> cons n -> filled m ->
  orel (fun x y => calm (fst x) (fst y) /\ good (fst x) /\ cons (fst x) /\ cons (fst y) /\ filled (fst x) /\ Forall2 reply_reading (snd x) (snd y))
    (run fuel m cs) (run fuel n (map unmitigated cs)).
Proof.
  intros fuel. induction cs as [|c cs IH]; intros m n CA G CM CN FI; cbn [run map].
  - cbn. auto 10.
  - pose proof (step_calm fuel m n c CA G CM CN FI) as ST.
    destruct (step fuel m c) as [[m1 r1]| |] eqn:S1, (step fuel n (unmitigated c)) as [[n1 r2]| |] eqn:S2; try nope.
    cbn [orel obind fst snd] in *. destruct ST as [CA1 RR].
    specialize (IH m1 n1 CA1 (good_step _ _ _ _ _ G S1) (cons_step _ _ _ _ _ CM S1) (cons_step _ _ _ _ _ CN S2) (filled_step _ _ _ _ _ G CM FI S1)).
    destruct (run fuel m1 cs) as [[m2 q1]| |], (run fuel n1 (map unmitigated cs)) as [[n2 q2]| |]; try nope.
    cbn [orel obind fst snd] in *. destruct IH as (I1 & I2 & I3 & I4 & I5 & I6). auto 10.
Qed.

Lemma run_calm0 : forall fuel hist m rs, run fuel modeler0 hist = Ret (m, rs) ->
  exists n qs, run fuel modeler0 (map unmitigated hist) = Ret (n, qs) /\ calm m n /\ good m /\ cons m /\ cons n /\ filled m.
Proof.
  intros fuel hist m rs R. pose proof (run_calm fuel hist modeler0 modeler0 calm0 good0 cons0 cons0 filled0) as K.
  rewrite R in K. destruct (run fuel modeler0 (map unmitigated hist)) as [[n qs]| |]; try contradiction.
  cbn [orel fst snd] in K. destruct K as (K1 & K2 & K3 & K4 & K5 & _). exists n, qs. auto 10.
Qed.

(** ** The theorem *)
(** Switching mitigation off changes neither whether a call returns, nor its
    status, nor the number of results, nor their times, pressures, tilts and
    orientations. *)
Theorem C34_only_geometry : forall (A := real_arith) fuel hist cs,
  orel (Forall2 reply_reading) (answers fuel hist cs) (answers fuel (map unmitigated hist) (map unmitigated cs)).
Proof.
  intros A fuel hist cs. subst A. unfold answers.
  pose proof (run_calm fuel hist modeler0 modeler0 calm0 good0 cons0 cons0 filled0) as K.
  destruct (run fuel modeler0 hist) as [[m rs]| |], (run fuel modeler0 (map unmitigated hist)) as [[n qs]| |]; try nope.
  cbn [orel obind fst snd] in *. destruct K as (K1 & K2 & K3 & K4 & K5 & _).
  pose proof (run_calm fuel cs m n K1 K2 K3 K4 K5) as L.
  destruct (run fuel m cs) as [[m2 r2]| |], (run fuel n (map unmitigated cs)) as [[n2 q2]| |]; try nope.
  cbn [orel obind fst snd] in *. apply L.
Qed.
