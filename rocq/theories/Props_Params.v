(** * Parameters of disabled features have no influence, for every arithmetic
      (C35, part of C33, and the same for the unused projection mode). *)
From Verif Require Export Cons.
From Coq Require Import Lia.

Section Params_rel.
Context {A : Arith}.
Variable fuel : nat.

(** ** Specification: which parameters count *)
(** Wobble smoother parameters: the same, or both disabled. *)
Definition same_wobble (a b : WobbleParams) : Prop :=
  a = b \/ (wp_enabled a = false /\ wp_enabled b = false).
(** Loop mitigation parameters: the same, or both disabled. *)
Definition same_loop (a b : LoopParams) : Prop :=
  a = b \/ (lp_enabled a = false /\ lp_enabled b = false).
(** Stylus parameters: same mode, and the same parameters of that mode. *)
Definition same_stylus (a b : StylusParams) : Prop :=
  sy_normal a = sy_normal b /\
  (if sy_normal a then sy_min_samples a = sy_min_samples b /\ sy_min_duration a = sy_min_duration b
   else sy_max_samples a = sy_max_samples b).
Definition same_position (a b : PositionParams) : Prop :=
  pp_spring a = pp_spring b /\ pp_drag a = pp_drag b /\ same_loop (pp_loop a) (pp_loop b).
Definition same_params (a b : StrokeModelParams) : Prop :=
  same_wobble (p_wobble a) (p_wobble b) /\ same_position (p_position a) (p_position b) /\
  p_sampling a = p_sampling b /\ same_stylus (p_stylus a) (p_stylus b) /\
  p_prediction a = p_prediction b.
Definition same_call (c d : call) : Prop :=
  match c, d with
  | CReset p, CReset q => same_params p q
  | _, _ => c = d
  end.

(** ** Proof *)
Lemma same_loop_enabled : forall a b, same_loop a b -> lp_enabled a = lp_enabled b.
Proof. intros a b [->|[H1 H2]]; congruence. Qed.
Lemma same_wobble_enabled : forall a b, same_wobble a b -> wp_enabled a = wp_enabled b.
Proof. intros a b [->|[H1 H2]]; congruence. Qed.

Lemma same_validate : forall a b, same_params a b -> validate_params a = validate_params b.
Proof.
  intros a b (W & (P1 & P2 & P3) & S & (Y1 & Y2) & PR). unfold validate_params, validate_position.
  rewrite (same_loop_enabled _ _ P3), S, PR, P1, P2, Y1.
  assert (validate_wobble (p_wobble a) = validate_wobble (p_wobble b)) as ->.
  { destruct W as [->|[W1 W2]]; [reflexivity|]. unfold validate_wobble. rewrite W1, W2. reflexivity. }
  assert (validate_loop (pp_loop (p_position a)) = validate_loop (pp_loop (p_position b))) as ->.
  { destruct P3 as [->|[W1 W2]]; [reflexivity|]. unfold validate_loop. rewrite W1, W2. reflexivity. }
  assert (validate_stylus (p_stylus a) = validate_stylus (p_stylus b)) as ->; [|reflexivity].
  unfold validate_stylus. rewrite <- Y1. destruct (sy_normal (p_stylus a)); [destruct Y2 as [-> ->]|rewrite Y2]; reflexivity.
Qed.

Record same_w (a b : Wobble) : Prop := mkSameW {
  sw_state : w_state a = w_state b; sw_saved : w_saved a = w_saved b;
  sw_act : w_save_active a = w_save_active b; sw_params : same_wobble (w_params a) (w_params b) }.
Record same_s (a b : Stylus) : Prop := mkSameS {
  sst_state : sm_state a = sm_state b; sst_saved : sm_saved a = sm_saved b;
  sst_act : sm_save_active a = sm_save_active b; sst_params : same_stylus (sm_params a) (sm_params b) }.
Record same_l (a b : LoopModeler) : Prop := mkSameL {
  sl_state : l_samples a = l_samples b; sl_saved : l_saved a = l_saved b;
  sl_act : l_save_active a = l_save_active b; sl_params : same_loop (l_params a) (l_params b) }.
Record same_p (a b : PosModeler) : Prop := mkSameP {
  sp_state' : pm_state a = pm_state b; sp_saved' : pm_saved a = pm_saved b;
  sp_params' : same_position (pm_params a) (pm_params b) }.
Definition same_pred (a b : Predictor) : Prop :=
  match a, b with
  | PStrokeEnd pp sp l, PStrokeEnd pp' sp' l' => same_position pp pp' /\ sp = sp' /\ l = l'
  | PKal k, PKal k' => k = k'
  | _, _ => False
  end.
Definition same_opt {X} (R : X -> X -> Prop) (a b : option X) : Prop :=
  match a, b with Some x, Some y => R x y | None, None => True | _, _ => False end.
Record same_m (a b : Modeler) : Prop := mkSameM {
  s_pred : same_opt same_pred (m_predictor a) (m_predictor b);
  s_par : same_opt same_params (m_params a) (m_params b);
  s_wob : same_w (m_wobble a) (m_wobble b);
  s_pos : same_p (m_pos a) (m_pos b);
  s_sty : same_s (m_stylus a) (m_stylus b);
  s_loop : same_l (m_loop a) (m_loop b);
  s_last : m_last a = m_last b;
  s_spred : same_opt same_pred (m_saved_predictor a) (m_saved_predictor b);
  s_slast : m_saved_last a = m_saved_last b;
  s_act : m_save_active a = m_save_active b }.

Definition orel {X} (R : X -> X -> Prop) (a b : outcome X) : Prop :=
  match a, b with
  | Ret x, Ret y => R x y
  | UB k, UB k' => k = k'
  | Diverge, Diverge => True
  | _, _ => False
  end.

Lemma same_position_refl : forall p, same_position p p.
Proof. intros p. repeat split. left. reflexivity. Qed.
Lemma same_stylus_refl : forall p, same_stylus p p.
Proof. intros p. split; [reflexivity|]. destruct (sy_normal p); auto. Qed.

Lemma wobble_update_same : forall a b pos t, same_w a b ->
  orel (fun x y => same_w (fst x) (fst y) /\ snd x = snd y) (wobble_update a pos t) (wobble_update b pos t).
Proof.
  intros [st sv ac p] [st' sv' ac' p'] pos t [H1 H2 H3 H4]. cbn in *. subst. unfold wobble_update. cbn [w_params w_state w_saved w_save_active].
  destruct H4 as [->|[W1 W2]].
  - destruct (wp_enabled p'); cbn [negb]; [|cbn; split; [constructor; cbn; auto; left|]; reflexivity].
    destruct (back _); cbn; [|reflexivity].
    destruct (wobble_trim _ _ _ _ _); cbn; auto.
    destruct (feqb _ _); cbn; (split; [constructor; cbn; auto; left; reflexivity|reflexivity]).
  - rewrite W1, W2. cbn. split; [constructor; cbn; auto; right; auto|reflexivity].
Qed.

Lemma stylus_trim_same : forall p p' raw, same_stylus p p' -> stylus_trim p raw = stylus_trim p' raw.
Proof.
  intros p p' raw [H1 H2]. induction raw as [|r raw IH]; cbn [stylus_trim];
    unfold should_drop; rewrite <- H1; destruct (sy_normal p);
    first [rewrite H2 | let H := fresh in destruct H2 as [-> H]; rewrite H]; try rewrite IH; reflexivity.
Qed.

Lemma stylus_update_same : forall a b pos t pr ti o, same_s a b ->
  orel same_s (stylus_update a pos t pr ti o) (stylus_update b pos t pr ti o).
Proof.
  intros [st sv ac p] [st' sv' ac' p'] pos t pr ti o [H1 H2 H3 H4]. cbn in *. subst. unfold stylus_update.
  cbn [sm_params sm_state sm_saved sm_save_active].
  destruct H4 as [N H4]. rewrite <- N. destruct (negb (sy_normal p) && _ && _ && _).
  - cbn. constructor; cbn; auto. split; assumption.
  - destruct (match back (s_raw st') with Some _ => _ | None => _ end) as [v a].
    rewrite (stylus_trim_same p p' _ (conj N H4)). destruct (stylus_trim _ _); cbn; auto. constructor; cbn; auto. split; assumption.
Qed.

Lemma stylus_query_same : forall a b tip n, same_s a b -> stylus_query fuel a tip n = stylus_query fuel b tip n.
Proof.
  intros [st sv ac p] [st' sv' ac' p'] tip n [H1 H2 H3 [N H4]]. cbn in *. subst. unfold stylus_query. cbn. rewrite N. reflexivity.
Qed.

Lemma loop_get_same : forall a b, same_l a b -> loop_get a = loop_get b.
Proof.
  intros [st sv ac p] [st' sv' ac' p'] [H1 H2 H3 H4]. cbn in *. subst. unfold loop_get, loop_value. cbn.
  destruct H4 as [->|[W1 W2]]; [reflexivity|]. rewrite W1, W2. reflexivity.
Qed.

Lemma loop_update_same : forall a b v t, same_l a b ->
  same_l (fst (loop_update a v t)) (fst (loop_update b v t)) /\ snd (loop_update a v t) = snd (loop_update b v t).
Proof.
  intros [st sv ac p] [st' sv' ac' p'] v t [H1 H2 H3 H4]. cbn in *. subst. unfold loop_update. cbn.
  destruct H4 as [->|[W1 W2]].
  - destruct (lp_enabled p'); cbn; (split; [constructor; cbn; auto; left; reflexivity|reflexivity]).
  - rewrite W1, W2. cbn. split; [constructor; cbn; auto; right; auto|reflexivity].
Qed.

Lemma model_stylus_loop_same : forall tips sm sm' lm lm' x pt, same_s sm sm' -> same_l lm lm' ->
  orel (fun a b => same_l (fst a) (fst b) /\ snd a = snd b)
    (model_stylus_loop fuel tips sm lm x pt) (model_stylus_loop fuel tips sm' lm' x pt).
Proof.
  induction tips as [|tip rest IH]; intros sm sm' lm lm' x pt HS HL; cbn [model_stylus_loop].
  - cbn. auto.
  - rewrite (stylus_query_same sm sm' _ _ HS). destruct (stylus_query _ _ _ _); cbn [obind]; try (cbn; auto; fail).
    destruct (interp_result _ _ _ _); cbn [obind]; try (cbn; auto; fail).
    destruct (loop_update_same lm lm' (r_vel x1) (t_time tip) HL) as [L1 L2].
    destruct (loop_update lm _ _) as [l1 v1], (loop_update lm' _ _) as [l2 v2]. cbn in L1, L2. subst v2.
    specialize (IH sm sm' l1 l2 v1 (t_time tip) HS L1).
    destruct (model_stylus_loop fuel rest sm l1 v1 (t_time tip)) as [[? ?]| |],
      (model_stylus_loop fuel rest sm' l2 v1 (t_time tip)) as [[? ?]| |]; cbn in *; try contradiction; auto.
    destruct IH as [? ->]. auto.
Qed.

Lemma model_stylus_same : forall tips sm sm' lm lm' pt, same_s sm sm' -> same_l lm lm' ->
  orel (fun a b => same_l (fst a) (fst b) /\ snd a = snd b)
    (model_stylus fuel tips sm lm pt) (model_stylus fuel tips sm' lm' pt).
Proof. intros. unfold model_stylus. rewrite (loop_get_same lm lm' H0). apply model_stylus_loop_same; assumption. Qed.

Lemma tip_update_same : forall p q s a t, same_position p q -> tip_update p s a t = tip_update q s a t.
Proof. intros p q s a t (H1 & H2 & _). unfold tip_update. rewrite H1, H2. reflexivity. Qed.

Lemma path_loop_same : forall k p q s sp st ep et n i, same_position p q ->
  path_loop p s sp st ep et n i k = path_loop q s sp st ep et n i k.
Proof.
  induction k as [|k IH]; intros; cbn; [reflexivity|]. rewrite (tip_update_same p q _ _ _ H), (IH p q); auto.
Qed.
Lemma update_along_path_same : forall p q s sp st ep et n, same_position p q ->
  update_along_path p s sp st ep et n = update_along_path q s sp st ep et n.
Proof. intros. unfold update_along_path. rewrite (path_loop_same _ p q); auto. Qed.

Lemma end_of_stroke_same : forall k p q s a d st, same_position p q ->
  model_end_of_stroke p s a d k st = model_end_of_stroke q s a d k st.
Proof.
  induction k as [|k IH]; intros; cbn [model_end_of_stroke]; [reflexivity|]. rewrite (tip_update_same p q _ _ _ H).
  repeat match goal with |- context [model_end_of_stroke p ?s ?a ?d k ?st] => rewrite (IH p q s a d st H) end.
  reflexivity.
Qed.

Lemma number_of_steps_same : forall tip a b sp p q, same_position p q ->
  number_of_steps tip a b sp p = number_of_steps tip a b sp q.
Proof. intros tip a b sp p q (H1 & _). unfold number_of_steps. rewrite H1. reflexivity. Qed.

Lemma pred_update_same : forall a b pos t, same_pred a b -> orel same_pred (pred_update a pos t) (pred_update b pos t).
Proof.
  intros [pp sp l|k] [pp' sp' l'|k'] pos t H; cbn in H; try contradiction; cbn.
  - destruct H as (H1 & H2 & H3). auto.
  - subst. destruct (kpred_update k' pos t); cbn; auto.
Qed.
Lemma pred_reset_same : forall a b, same_pred a b -> same_pred (pred_reset a) (pred_reset b).
Proof.
  intros [pp sp l|k] [pp' sp' l'|k'] H; cbn in H; try contradiction; cbn; [|congruence].
  destruct H as (H1 & H2 & H3). auto.
Qed.
Lemma pred_construct_same : forall a b tip, same_pred a b -> pred_construct a tip = pred_construct b tip.
Proof.
  intros [pp sp l|k] [pp' sp' l'|k'] tip H; cbn in H; try contradiction; [|congruence].
  destruct H as (H1 & -> & ->). cbn. destruct l'; [|reflexivity]. rewrite (end_of_stroke_same _ pp pp'); auto.
Qed.

Definition rr (x y : upd_result) : Prop :=
  let '(m, s, r) := x in let '(m', s', r') := y in same_m m m' /\ s = s' /\ r = r'.

Ltac nope := solve [cbn in *; auto | cbn in *; contradiction | cbn in *; congruence].

Lemma process_down_same : forall a b p q i rs, same_m a b -> same_params p q ->
  orel rr (process_down a p i rs) (process_down b q i rs).
Proof.
  intros a b p q i rs M P. unfold process_down. rewrite <- (s_last _ _ M). destruct (m_last a) eqn:L; [cbn; auto|].
  destruct M. destruct P as (PW & PP & PS & PY & PR).
  pose proof (stylus_update_same (stylus_reset (m_stylus a) (p_stylus p)) (stylus_reset (m_stylus b) (p_stylus q))
    (i_pos i) (i_time i) (i_pressure i) (i_tilt i) (i_orient i)) as SU.
  destruct s_sty0, s_wob0, s_loop0.
  specialize (SU ltac:(constructor; cbn; auto)).
  destruct (stylus_update (stylus_reset (m_stylus a) _) _ _ _ _ _) as [s1| |],
    (stylus_update (stylus_reset (m_stylus b) _) _ _ _ _ _) as [s2| |]; try nope. cbn [obind].
  unfold same_opt in s_pred0.
  destruct (m_predictor a) as [pa|], (m_predictor b) as [pb|]; try nope.
  - pose proof (pred_update_same _ _ (i_pos i) (i_time i) (pred_reset_same _ _ s_pred0)) as PU.
    destruct (pred_update (pred_reset pa) _ _), (pred_update (pred_reset pb) _ _); try nope. cbn.
    split; [constructor; cbn; auto; constructor; cbn; auto; apply PP|auto].
  - cbn. split; [constructor; cbn; auto; constructor; cbn; auto; apply PP|auto].
Qed.

Lemma process_move_same : forall a b p q i rs, same_m a b -> same_params p q ->
  orel rr (process_move fuel a p i rs) (process_move fuel b q i rs).
Proof.
  intros a b p q i rs M P. unfold process_move. rewrite <- (s_last _ _ M). destruct (m_last a) as [l|] eqn:L; [|cbn; auto].
  destruct M. destruct P as (PW & PP & PS & PY & PR).
  pose proof (wobble_update_same _ _ (i_pos i) (i_time i) s_wob0) as WU.
  destruct (wobble_update (m_wobble a) _ _) as [[w1 c1]| |], (wobble_update (m_wobble b) _ _) as [[w2 c2]| |]; try nope.
  destruct WU as [WU E]. cbn in WU, E. subst c2. cbn [obind].
  pose proof (stylus_update_same _ _ c1 (i_time i) (i_pressure i) (i_tilt i) (i_orient i) s_sty0) as SU.
  destruct (stylus_update (m_stylus a) _ _ _ _ _) as [s1| |], (stylus_update (m_stylus b) _ _ _ _ _) as [s2| |]; try nope.
  cbn in SU. cbn [obind]. rewrite <- (sp_state' _ _ s_pos0), <- PS, (number_of_steps_same _ _ _ _ _ _ PP).
  destruct (number_of_steps _ _ _ _ _) as [[n|e]| |]; cbn [obind]; try nope.
  - rewrite (update_along_path_same _ _ _ _ _ _ _ _ (sp_params' _ _ s_pos0)).
    destruct (update_along_path _ _ _ _ _ _ _) as [[tip tips]| |]; cbn [obind]; try nope.
    assert (PU : orel (same_opt same_pred)
      (match m_predictor a with None => Ret None | Some pr => let* pr' := pred_update pr c1 (i_time i) in Ret (Some pr') end)
      (match m_predictor b with None => Ret None | Some pr => let* pr' := pred_update pr c1 (i_time i) in Ret (Some pr') end)).
    { unfold same_opt in s_pred0. destruct (m_predictor a) as [pa|], (m_predictor b) as [pb|]; try nope.
      pose proof (pred_update_same _ _ c1 (i_time i) s_pred0) as PU.
      destruct (pred_update pa _ _), (pred_update pb _ _); nope. }
    destruct (match m_predictor a with None => _ | Some _ => _ end) as [pa| |],
      (match m_predictor b with None => _ | Some _ => _ end) as [pb| |]; try nope. cbn [obind].
    pose proof (model_stylus_same tips s1 s2 (m_loop a) (m_loop b) (i_time i) SU s_loop0) as MS.
    destruct (model_stylus fuel tips s1 _ _) as [[l1 o1]| |], (model_stylus fuel tips s2 _ _) as [[l2 o2]| |]; try nope.
    destruct MS as [MS E]. cbn in MS, E. subst o2. cbn.
    destruct s_pos0. split; [constructor; cbn; auto; constructor; cbn; auto|auto].
  - cbn. split; [constructor; cbn; auto|auto].
Qed.

Lemma process_up_same : forall a b p q i rs, same_m a b -> same_params p q ->
  orel rr (process_up fuel a p i rs) (process_up fuel b q i rs).
Proof.
  intros a b p q i rs M P. unfold process_up. rewrite <- (s_last _ _ M). destruct (m_last a) as [l|] eqn:L; [|cbn; auto].
  destruct P as (PW & PP & PS & PY & PR).
  pose proof (s_pos _ _ M) as SP.
  rewrite <- (sp_state' _ _ SP), <- PS, (number_of_steps_same _ _ _ _ _ _ PP).
  destruct (number_of_steps _ _ _ _ _) as [[n|e]| |]; cbn [obind]; try nope.
  rewrite (update_along_path_same _ _ _ _ _ _ _ _ (sp_params' _ _ SP)).
  destruct (update_along_path _ _ _ _ _ _ _) as [[tip tips]| |]; cbn [obind]; try nope.
  rewrite (end_of_stroke_same _ _ _ _ _ _ _ (sp_params' _ _ SP)).
  destruct (model_end_of_stroke _ _ _ _ _ _) as [tip2 tips2].
  pose proof (stylus_update_same _ _ (i_pos i) (i_time i) (i_pressure i) (i_tilt i) (i_orient i) (s_sty _ _ M)) as SU.
  destruct (stylus_update (m_stylus a) _ _ _ _ _) as [s1| |], (stylus_update (m_stylus b) _ _ _ _ _) as [s2| |]; try nope.
  cbn in SU. cbn [obind].
  pose proof (model_stylus_same (match tips ++ tips2 with [] => [tip2] | l => l end) s1 s2 (m_loop a) (m_loop b)
    (i_time (li_input l)) SU (s_loop _ _ M)) as MS.
  destruct (model_stylus fuel _ s1 _ _) as [[l1 o1]| |], (model_stylus fuel _ s2 _ _) as [[l2 o2]| |]; try nope.
  destruct MS as [MS E]. cbn in MS, E. subst o2. destruct M, SP. cbn.
  split; [constructor; cbn; auto; constructor; cbn; auto|auto].
Qed.

Lemma update_same : forall a b i rs, same_m a b -> orel rr (update fuel a i rs) (update fuel b i rs).
Proof.
  intros a b i rs M. unfold update. pose proof (s_par _ _ M) as PM. unfold same_opt in PM.
  destruct (m_params a) as [p|], (m_params b) as [q|]; try nope.
  destruct (validate_input i); try nope. rewrite <- (s_last _ _ M).
  assert (K : orel rr
    match i_event i with
    | EDown => process_down a p i rs | EMove => process_move fuel a p i rs
    | EUp => process_up fuel a p i rs | EOther _ => Ret (a, InvalidArgument msg_event, rs) end
    match i_event i with
    | EDown => process_down b q i rs | EMove => process_move fuel b q i rs
    | EUp => process_up fuel b q i rs | EOther _ => Ret (b, InvalidArgument msg_event, rs) end).
  { destruct (i_event i); [apply process_down_same|apply process_move_same|apply process_up_same|cbn]; auto. }
  destruct (m_last a); [|exact K]. destruct (input_eqb _ _); [cbn; auto|]. destruct (dltb _ _); [cbn; auto|]. exact K.
Qed.

Lemma step_same : forall a b c d, same_m a b -> same_call c d ->
  orel (fun x y => same_m (fst x) (fst y) /\ snd x = snd y) (step fuel a c) (step fuel b d).
Proof.
  intros a b c d M SC. destruct c, d; cbn in SC; try discriminate SC.
  - cbn [step]. unfold reset_params. rewrite <- (same_validate _ _ SC). destruct (validate_params p); try nope.
    destruct M, s_wob0, s_pos0, s_sty0, s_loop0. destruct SC as (PW & (PP1 & PP2 & PP3) & PS & PY & PR).
    cbn. split; [|reflexivity]. constructor; cbn; auto; try (constructor; cbn; auto; fail).
    + unfold make_predictor. rewrite PR, PS. destruct (p_prediction p0); cbn; auto.
      repeat split; auto.
    + repeat split; auto; apply PY.
  - cbn [step]. unfold reset_keep. pose proof (s_par _ _ M) as PM. unfold same_opt in PM.
    destruct (m_params a) eqn:PA, (m_params b) eqn:PB; try nope. destruct M.
    cbn. split; [|reflexivity]. constructor; cbn; auto.
  - inversion SC; subst. cbn [step]. pose proof (update_same a b i0 results0 M) as U.
    destruct (update fuel a i0 results0) as [[[m1 s1] r1]| |], (update fuel b i0 results0) as [[[m2 s2] r2]| |]; try nope.
    cbn in U. destruct U as (U1 & -> & ->). cbn. auto.
  - cbn [step]. unfold predict. pose proof (s_par _ _ M) as PM. unfold same_opt in PM.
    destruct (m_params a) eqn:PA, (m_params b) eqn:PB; try nope.
    pose proof (s_pred _ _ M) as QM. unfold same_opt in QM.
    destruct (m_predictor a) eqn:QA, (m_predictor b) eqn:QB; try nope.
    rewrite <- (s_last _ _ M). destruct (m_last a) eqn:L; try nope.
    rewrite (pred_construct_same _ _ _ QM), (sp_state' _ _ (s_pos _ _ M)).
    destruct (pred_construct _ _); cbn [obind]; try nope.
    pose proof (model_stylus_same x (m_stylus a) (m_stylus b) (m_loop a) (m_loop b) (i_time (li_input l)) (s_sty _ _ M) (s_loop _ _ M)) as MS.
    destruct (model_stylus fuel x (m_stylus a) _ _) as [[l1 o1]| |], (model_stylus fuel x (m_stylus b) _ _) as [[l2 o2]| |]; try nope.
    destruct MS as [MS E]. cbn in MS, E. subst o2. destruct M. cbn. split; [|reflexivity]. constructor; cbn; auto.
  - cbn. split; [|reflexivity]. destruct M, s_wob0, s_pos0, s_sty0, s_loop0.
    constructor; cbn; auto; try (constructor; cbn; auto; congruence).
    unfold same_opt in s_pred0 |- *. destruct (m_predictor a), (m_predictor b); auto; contradiction.
  - cbn. split; [|reflexivity]. unfold restore. rewrite <- (s_act _ _ M). destruct (m_save_active a) eqn:SA; [|exact M].
    destruct M. constructor; cbn; auto.
    + unfold same_opt in s_spred0 |- *. destruct (m_saved_predictor a), (m_saved_predictor b); auto; contradiction.
    + destruct s_wob0. unfold wobble_restore. rewrite sw_act0. destruct (w_save_active (m_wobble b)) eqn:X; constructor; cbn; auto; congruence.
    + destruct s_pos0. unfold pos_restore. rewrite sp_saved'0. destruct (pm_saved (m_pos b)) eqn:X; constructor; cbn; auto; congruence.
    + destruct s_sty0. unfold stylus_restore. rewrite sst_act0. destruct (sm_save_active (m_stylus b)) eqn:X; constructor; cbn; auto; congruence.
    + destruct s_loop0. unfold loop_restore. rewrite sl_act0. destruct (l_save_active (m_loop b)) eqn:X; constructor; cbn; auto; congruence.
Qed.

Lemma run_same : forall cs ds a b, Forall2 same_call cs ds -> same_m a b ->
  orel (fun x y => same_m (fst x) (fst y) /\ snd x = snd y) (run fuel a cs) (run fuel b ds).
Proof.
  intros cs ds a b F. revert a b. induction F as [|c d cs ds SC F IH]; intros a b M; cbn [run].
  - cbn. auto.
  - pose proof (step_same a b c d M SC) as S.
    destruct (step fuel a c) as [[m1 r1]| |], (step fuel b d) as [[m2 r2]| |]; try nope.
    cbn in S. destruct S as [S ->]. cbn [obind]. specialize (IH m1 m2 S).
    destruct (run fuel m1 cs) as [[m3 r3]| |], (run fuel m2 ds) as [[m4 r4]| |]; try nope.
    cbn in *. destruct IH as [? ->]. auto.
Qed.

Lemma same_m_refl : forall m, same_m m m.
Proof.
  intros m. constructor; auto.
  - destruct (m_predictor m) as [[]|]; cbn; auto. repeat split; auto. left; reflexivity.
  - destruct (m_params m); cbn; auto. repeat split; try (left; reflexivity). destruct (sy_normal _); auto.
  - constructor; auto. left; reflexivity.
  - constructor; auto. apply same_position_refl.
  - constructor; auto. apply same_stylus_refl.
  - constructor; auto. left; reflexivity.
  - destruct (m_saved_predictor m) as [[]|]; cbn; auto. repeat split; auto. left; reflexivity.
Qed.

(** ** Theorems: two histories that differ only in parameters that do not count
    get the same replies. *)
Theorem unused_params_irrelevant : forall cs ds,
  Forall2 same_call cs ds -> answers fuel [] cs = answers fuel [] ds.
Proof.
  intros cs ds F. pose proof (run_same cs ds modeler0 modeler0 F (same_m_refl _)) as R.
  unfold answers. cbn [run obind].
  destruct (run fuel modeler0 cs) as [[m1 r1]| |], (run fuel modeler0 ds) as [[m2 r2]| |]; try nope.
  cbn in *. destruct R as [_ ->]. reflexivity.
Qed.

(** The parameters with other smoothing / mitigation / stylus parameters. *)
Definition with_wobble (p : StrokeModelParams) (w : WobbleParams) : StrokeModelParams :=
  mkParams w (p_position p) (p_sampling p) (p_stylus p) (p_prediction p).
Definition with_loop (p : StrokeModelParams) (l : LoopParams) : StrokeModelParams :=
  mkParams (p_wobble p) (mkPositionParams (pp_spring (p_position p)) (pp_drag (p_position p)) l)
    (p_sampling p) (p_stylus p) (p_prediction p).
Definition with_stylus (p : StrokeModelParams) (s : StylusParams) : StrokeModelParams :=
  mkParams (p_wobble p) (p_position p) (p_sampling p) s (p_prediction p).
(** Replace the parameters of every Reset. *)
Definition map_resets (f : StrokeModelParams -> StrokeModelParams) (cs : list call) : list call :=
  map (fun c => match c with CReset p => CReset (f p) | _ => c end) cs.

Lemma map_resets_same : forall f cs,
  (forall p, In (CReset p) cs -> same_params p (f p)) -> Forall2 same_call cs (map_resets f cs).
Proof.
  intros f cs H. induction cs as [|c cs IH]; constructor.
  - destruct c; cbn; auto. apply H. left. reflexivity.
  - apply IH. intros p I. apply H. right. exact I.
Qed.

(** If smoothing is disabled in every Reset, replacing the other smoothing
    parameters by arbitrary ones changes no reply. *)
Theorem C35_disabled_smoothing_irrelevant : forall cs timeout floor ceiling,
  (forall p, In (CReset p) cs -> wp_enabled (p_wobble p) = false) ->
  answers fuel [] (map_resets (fun p => with_wobble p (mkWobbleParams false timeout floor ceiling)) cs) =
  answers fuel [] cs.
Proof.
  intros cs t fl ce H. symmetry. apply unused_params_irrelevant. apply map_resets_same.
  intros p I. specialize (H p I). repeat split; cbn; auto; try (left; reflexivity); try (right; auto).
  destruct (sy_normal _); auto.
Qed.

(** If loop mitigation is disabled in every Reset, replacing its other parameters
    by arbitrary ones changes no reply. *)
Theorem C33_disabled_mitigation_irrelevant : forall cs sl su tl tu w n,
  (forall p, In (CReset p) cs -> lp_enabled (pp_loop (p_position p)) = false) ->
  answers fuel [] (map_resets (fun p => with_loop p (mkLoopParams false sl su tl tu w n)) cs) =
  answers fuel [] cs.
Proof.
  intros cs sl su tl tu w n H. symmetry. apply unused_params_irrelevant. apply map_resets_same.
  intros p I. specialize (H p I). repeat split; cbn; auto; try (left; reflexivity); try (right; auto).
  destruct (sy_normal _); auto.
Qed.

(** With normal projection max_input_samples has no influence; with closest-point
    projection min_input_samples and min_sample_duration have none. *)
Theorem C30_other_mode_params_irrelevant : forall cs n k d,
  answers fuel [] (map_resets (fun p => with_stylus p
    (if sy_normal (p_stylus p)
     then mkStylusParams n true (sy_min_samples (p_stylus p)) (sy_min_duration (p_stylus p))
     else mkStylusParams (sy_max_samples (p_stylus p)) false k d)) cs) =
  answers fuel [] cs.
Proof.
  intros cs n k d. symmetry. apply unused_params_irrelevant. apply map_resets_same.
  intros p _. repeat split; cbn; auto; try (left; reflexivity).
  - destruct (sy_normal (p_stylus p)); reflexivity.
  - destruct (sy_normal (p_stylus p)); cbn; auto.
Qed.

End Params_rel.
