(** * The same history with loop contraction mitigation switched off, in any
      arithmetic: when both runs return, they go through the same spring states. *)
From Coq Require Import ZArith Bool List Lia.
From Verif Require Import Calm Props_Params.
Import ListNotations.

Section Quiet.
Context {A : Arith}.

(** Whenever both return. *)
Definition both {X Y : Type} (R : X -> Y -> Prop) (x : outcome X) (y : outcome Y) : Prop :=
  match x, y with Ret a, Ret b => R a b | _, _ => True end.

Lemma quiet_valid : forall p : StrokeModelParams, validate_params p = OkStatus -> validate_params (without_mitigation p) = OkStatus.
Proof.
  intros p V. unfold validate_params in *. cbn [without_mitigation p_wobble p_position p_sampling p_stylus p_prediction position_off pp_loop loop_off lp_enabled andb].
  match type of V with (if ?b then _ else _) = _ => destruct b; [discriminate V|] end.
  apply and_then_ok in V. destruct V as [V1 V]. apply and_then_ok in V. destruct V as [V2 V].
  rewrite V1. unfold and_then at 1. unfold validate_position in *. apply and_then_ok in V2. destruct V2 as [_ V2].
  change (validate_loop (pp_loop (position_off (p_position p)))) with OkStatus. unfold and_then at 2. cbn [position_off pp_spring pp_drag].
  rewrite V2. exact V.
Qed.
Definition pred_quiet (a : Predictor) : Predictor :=
  match a with PStrokeEnd pp sp l => PStrokeEnd (position_off pp) sp l | PKal k => PKal k end.
Lemma path_loop_quiet : forall k p s sp st ep et n i,
  path_loop (position_off p) s sp st ep et n i k = path_loop p s sp st ep et n i k.
Proof.
  induction k as [|k IH]; intros; cbn [path_loop]; [reflexivity|].
  change (tip_update (position_off p)) with (tip_update p). rewrite IH. reflexivity.
Qed.
Lemma along_path_quiet : forall p s sp st ep et n,
  update_along_path (position_off p) s sp st ep et n = update_along_path p s sp st ep et n.
Proof. intros. unfold update_along_path. rewrite path_loop_quiet. reflexivity. Qed.
Lemma end_of_stroke_quiet : forall k p s a d st,
  model_end_of_stroke (position_off p) s a d k st = model_end_of_stroke p s a d k st.
Proof.
  induction k as [|k IH]; intros; cbn [model_end_of_stroke]; [reflexivity|].
  change (tip_update (position_off p)) with (tip_update p). rewrite !IH. reflexivity.
Qed.
Lemma pred_update_quiet : forall a pos t,
  pred_update (pred_quiet a) pos t = (let* x := pred_update a pos t in Ret (pred_quiet x)).
Proof. intros [pp sp l|k] pos t; cbn; [reflexivity|]. destruct (kpred_update k pos t); reflexivity. Qed.
Lemma pred_reset_quiet : forall a, pred_reset (pred_quiet a) = pred_quiet (pred_reset a).
Proof. intros [pp sp l|k]; reflexivity. Qed.
Lemma pred_construct_quiet : forall a tip, pred_construct (pred_quiet a) tip = pred_construct a tip.
Proof. intros [pp sp [l|]|k] tip; cbn [pred_quiet pred_construct]; try reflexivity. rewrite end_of_stroke_quiet. reflexivity. Qed.
Lemma steps_quiet : forall tip a b sp p, number_of_steps tip a b sp (position_off p) = number_of_steps tip a b sp p.
Proof. reflexivity. Qed.

Record quiet (m n : Modeler) : Prop := mkQuiet {
  qu_pred : m_predictor n = option_map pred_quiet (m_predictor m);
  qu_par : m_params n = option_map without_mitigation (m_params m);
  qu_wob : m_wobble n = m_wobble m;
  qu_pst : pm_state (m_pos n) = pm_state (m_pos m);
  qu_psv : pm_saved (m_pos n) = pm_saved (m_pos m);
  qu_sty : m_stylus n = m_stylus m;
  qu_last : m_last n = m_last m;
  qu_sp : m_saved_predictor n = option_map pred_quiet (m_saved_predictor m);
  qu_sl : m_saved_last n = m_saved_last m;
  qu_sa : m_save_active n = m_save_active m
}.
Lemma quiet0 : quiet modeler0 modeler0.
Proof. constructor; reflexivity. Qed.

Definition qr (x y : upd_result) : Prop :=
  let '(m, s, r) := x in let '(n, t, q) := y in quiet m n /\ s = t /\ List.length r = List.length q.
(** The same status and number of results. *)
Inductive reply_alike : reply -> reply -> Prop :=
| RAStatus s : reply_alike (RStatus s) (RStatus s)
| RAResults s a b : List.length a = List.length b -> reply_alike (RResults s a) (RResults s b)
| RAVoid : reply_alike RVoid RVoid.

Ltac nope := solve [exact I | cbn; exact I | cbn in *; auto | cbn in *; contradiction | cbn in *; congruence].

Lemma pred_update_any : forall o pos t,
  match option_map pred_quiet o with None => Ret None | Some pr => let* pr' := pred_update pr pos t in Ret (Some pr') end =
  (let* x := match o with None => Ret None | Some pr => let* pr' := pred_update pr pos t in Ret (Some pr') end in Ret (option_map pred_quiet x)).
Proof.
  intros [a|] pos t; cbn [option_map obind]; [|reflexivity]. rewrite pred_update_quiet.
  destruct (pred_update a pos t); reflexivity.
Qed.

Lemma process_down_quiet : forall m n p i rs, quiet m n ->
  both qr (process_down m p i rs) (process_down n (without_mitigation p) i rs).
Proof.
  intros m n p i rs [C1 C2 C3 C4 C5 C6 C7 C8 C9 C10]. unfold process_down. rewrite C7.
  destruct (m_last m) as [l|] eqn:L; [cbn; split; [constructor; congruence|split; reflexivity]|].
  rewrite C6, C1. cbn [without_mitigation p_stylus].
  destruct (stylus_update _ _ _ _ _ _) as [sm| |]; cbn [obind]; try exact I.
  assert (PR : match option_map pred_quiet (m_predictor m) with None => Ret None | Some pr => let* pr' := pred_update (pred_reset pr) (i_pos i) (i_time i) in Ret (Some pr') end =
    (let* x := match m_predictor m with None => Ret None | Some pr => let* pr' := pred_update (pred_reset pr) (i_pos i) (i_time i) in Ret (Some pr') end in Ret (option_map pred_quiet x))).
  { destruct (m_predictor m) as [a|]; cbn [option_map obind]; [|reflexivity]. rewrite pred_reset_quiet, pred_update_quiet.
    destruct (pred_update (pred_reset a) _ _); reflexivity. }
  rewrite PR. destruct (match m_predictor m with None => _ | Some _ => _ end) as [x| |]; cbn [obind both]; try exact I.
  cbn [qr]. split; [|split; reflexivity].
  constructor; cbn; try assumption; try reflexivity. rewrite C3. reflexivity.
Qed.

Lemma in_stroke_quiet : forall m n p last, quiet m n -> cons n -> m_params m = Some p -> m_last m = Some last ->
  pm_params (m_pos n) = position_off (p_position p) /\ lp_enabled (l_params (m_loop n)) = false.
Proof.
  intros m n p last [C1 C2 C3 C4 C5 C6 C7 C8 C9 C10] CN MP ML. rewrite MP in C2.
  destruct (CN _ C2 ltac:(left; congruence)) as (_ & K1 & _ & K2). rewrite K1, K2. auto.
Qed.

Lemma stylus_loop_length : forall fuel tips sm lm v t lm' out, model_stylus_loop fuel tips sm lm v t = Ret (lm', out) -> List.length out = List.length tips.
Proof.
  intros fuel. induction tips as [|tip tips IH]; intros sm lm v t lm' out H; cbn [model_stylus_loop] in H.
  - injection H as _ <-. reflexivity.
  - bind_inv H. bind_inv H. destruct (loop_update lm (r_vel x0) (t_time tip)) as [l1 v1]. bind_inv H. destruct x1 as [l2 o2]. injection H as _ <-.
    cbn [List.length]. f_equal. eapply IH. exact E1.
Qed.
Lemma stylus_both : forall fuel tips sm lm ln t,
  both (fun a b => List.length (snd a) = List.length (snd b)) (model_stylus fuel tips sm lm t) (model_stylus fuel tips sm ln t).
Proof.
  intros. destruct (model_stylus fuel tips sm lm t) as [[l1 o1]| |] eqn:E1; try exact I. destruct (model_stylus fuel tips sm ln t) as [[l2 o2]| |] eqn:E2; try exact I.
  cbn [both snd]. apply stylus_loop_length in E1, E2. congruence.
Qed.

Lemma process_move_quiet : forall fuel m n p i rs, quiet m n -> cons m -> cons n -> m_params m = Some p ->
  both qr (process_move fuel m p i rs) (process_move fuel n (without_mitigation p) i rs).
Proof.
  intros fuel m n p i rs CA CM CN MP. pose proof CA as [C1 C2 C3 C4 C5 C6 C7 C8 C9 C10].
  unfold process_move. rewrite C7. destruct (m_last m) as [l|] eqn:ML.
  2:{ cbn; split; [constructor; congruence|split; reflexivity]. }
  destruct (in_stroke_quiet _ _ _ _ CA CN MP ML) as [K1 K2]. destruct (CM p MP ltac:(left; congruence)) as (_ & P2 & P3 & P4).
  rewrite C3. destruct (wobble_update _ _ _) as [[w c]| |]; cbn [obind]; try exact I.
  rewrite C6. destruct (stylus_update _ _ _ _ _ _) as [sm| |] eqn:SU; cbn [obind]; try exact I.
  rewrite C4. cbn [without_mitigation p_sampling p_position]. rewrite steps_quiet.
  destruct (number_of_steps _ _ _ _ _) as [[k|e]| |]; cbn [obind]; try exact I.
  - rewrite K1, P2, along_path_quiet. destruct (update_along_path _ _ _ _ _ _ _) as [[tip tips]| |]; cbn [obind]; try exact I.
    rewrite C1, pred_update_any. destruct (match m_predictor m with None => _ | Some _ => _ end) as [pr| |]; cbn [obind]; try exact I.
    pose proof (stylus_both fuel tips sm (m_loop m) (m_loop n) (i_time i)) as MS.
    destruct (model_stylus fuel tips sm (m_loop m) (i_time i)) as [[l1 o1]| |], (model_stylus fuel tips sm (m_loop n) (i_time i)) as [[l2 o2]| |]; try exact I.
    cbn [both obind fst snd qr] in *. split; [constructor; cbn; auto|]. split; [reflexivity|]. rewrite !app_length. congruence.
  - cbn [both qr]. split; [constructor; cbn; auto|]. split; reflexivity.
Qed.

Lemma process_up_quiet : forall fuel m n p i rs, quiet m n -> cons m -> cons n -> m_params m = Some p ->
  both qr (process_up fuel m p i rs) (process_up fuel n (without_mitigation p) i rs).
Proof.
  intros fuel m n p i rs CA CM CN MP. pose proof CA as [C1 C2 C3 C4 C5 C6 C7 C8 C9 C10].
  assert (KEEP : forall e, both qr (Ret (m, e, rs)) (Ret (n, e, rs))) by (intros e; cbn; split; [exact CA|split; reflexivity]).
  unfold process_up. rewrite C7. destruct (m_last m) as [l|] eqn:ML; [|apply KEEP].
  destruct (in_stroke_quiet _ _ _ _ CA CN MP ML) as [K1 K2]. destruct (CM p MP ltac:(left; congruence)) as (_ & P2 & P3 & P4).
  rewrite C4. cbn [without_mitigation p_sampling p_position]. rewrite steps_quiet.
  destruct (number_of_steps _ _ _ _ _) as [[k|e]| |]; cbn [obind]; try exact I; try (apply KEEP).
  rewrite K1, P2, along_path_quiet. destruct (update_along_path _ _ _ _ _ _ _) as [[tip tips]| |]; cbn [obind]; try exact I.
  rewrite end_of_stroke_quiet. destruct (model_end_of_stroke _ _ _ _ _ _) as [tip2 tips2].
  rewrite C6. destruct (stylus_update _ _ _ _ _ _) as [sm| |] eqn:SU; cbn [obind]; try exact I.
  match goal with |- context [model_stylus fuel ?ts sm (m_loop m) ?t] =>
    pose proof (stylus_both fuel ts sm (m_loop m) (m_loop n) t) as MS;
    destruct (model_stylus fuel ts sm (m_loop m) t) as [[l1 o1]| |], (model_stylus fuel ts sm (m_loop n) t) as [[l2 o2]| |] end; try exact I.
  cbn [both obind fst snd qr] in *. split; [constructor; cbn; auto|]. split; [reflexivity|]. rewrite !app_length. congruence.
Qed.

Lemma update_quiet : forall fuel m n i rs, quiet m n -> cons m -> cons n ->
  both qr (update fuel m i rs) (update fuel n i rs).
Proof.
  intros fuel m n i rs CA CM CN.
  assert (KEEP : forall e, both qr (Ret (m, e, rs)) (Ret (n, e, rs))) by (intros e; cbn; split; [exact CA|split; reflexivity]).
  unfold update. rewrite (qu_par _ _ CA). destruct (m_params m) as [p|] eqn:MP; cbn [option_map]; [|apply KEEP].
  destruct (validate_input i); try apply KEEP. rewrite (qu_last _ _ CA).
  assert (K : both qr
    match i_event i with
    | EDown => process_down m p i rs | EMove => process_move fuel m p i rs
    | EUp => process_up fuel m p i rs | EOther _ => Ret (m, InvalidArgument msg_event, rs) end
    match i_event i with
    | EDown => process_down n (without_mitigation p) i rs | EMove => process_move fuel n (without_mitigation p) i rs
    | EUp => process_up fuel n (without_mitigation p) i rs | EOther _ => Ret (n, InvalidArgument msg_event, rs) end).
  { destruct (i_event i); [apply process_down_quiet|apply process_move_quiet|apply process_up_quiet|apply KEEP]; assumption. }
  destruct (m_last m); [|exact K]. destruct (input_eqb _ _); [apply KEEP|]. destruct (dltb _ _); [apply KEEP|]. exact K.
Qed.

Lemma step_quiet : forall fuel m n c, quiet m n -> cons m -> cons n ->
  both (fun x y => quiet (fst x) (fst y) /\ reply_alike (snd x) (snd y)) (step fuel m c) (step fuel n (unmitigated c)).
Proof.
  intros fuel m n c CA CM CN. pose proof CA as [C1 C2 C3 C4 C5 C6 C7 C8 C9 C10]. destruct c; cbn [unmitigated step].
  - destruct (validate_params p) eqn:V; cbn [step]; unfold reset_params; rewrite ?V; try (rewrite (quiet_valid p V));
      cbn [both fst snd]; (split; [|constructor]); try exact CA.
    constructor; cbn [m_predictor m_params m_wobble m_pos m_stylus m_loop m_last m_saved_predictor m_saved_last m_save_active]; auto.
    unfold make_predictor. cbn [without_mitigation p_prediction p_sampling p_position]. destruct (p_prediction p); reflexivity.
  - unfold reset_keep. rewrite C2. destruct (m_params m) as [p|] eqn:MP; cbn [option_map both fst snd]; (split; [|constructor]); [|exact CA].
    constructor; cbn [m_predictor m_params m_wobble m_pos m_stylus m_loop m_last m_saved_predictor m_saved_last m_save_active]; auto.
  - pose proof (update_quiet fuel m n i results CA CM CN) as U.
    destruct (update fuel m i results) as [[[m1 s1] r1]| |], (update fuel n i results) as [[[m2 s2] r2]| |]; try exact I.
    cbn [both qr obind fst snd] in *. destruct U as (U1 & -> & U3). split; [exact U1|constructor; exact U3].
  - unfold predict. rewrite C2, C1, C7. destruct (m_params m) as [p|] eqn:MP; cbn [option_map].
    2:{ cbn. split; [exact CA|constructor; reflexivity]. }
    destruct (m_predictor m) as [pr|] eqn:PR; cbn [option_map]; [|cbn; split; [exact CA|constructor; reflexivity]].
    destruct (m_last m) as [lst|] eqn:ML; [|cbn; split; [exact CA|constructor; reflexivity]].
    rewrite pred_construct_quiet, C4, C6. destruct (pred_construct _ _) as [tips| |]; cbn [obind]; try exact I.
    pose proof (stylus_both fuel tips (m_stylus m) (m_loop m) (m_loop n) (i_time (li_input lst))) as MS.
    destruct (model_stylus fuel tips (m_stylus m) (m_loop m) _) as [[l1 o1]| |], (model_stylus fuel tips (m_stylus m) (m_loop n) _) as [[l2 o2]| |]; try exact I.
    cbn [both obind fst snd] in *. split; [|constructor; exact MS]. constructor; cbn [m_predictor m_params m_wobble m_pos m_stylus m_loop m_last m_saved_predictor m_saved_last m_save_active]; auto.
  - cbn [both fst snd]. split; [|constructor]. unfold save.
    constructor; cbn [m_predictor m_params m_wobble m_pos m_stylus m_loop m_last m_saved_predictor m_saved_last m_save_active]; auto; try congruence.
    + unfold pos_save. cbn [pm_state pm_saved]. rewrite ?C4; reflexivity.
    + rewrite C1, C8. destruct (m_predictor m); reflexivity.
  - cbn [both fst snd]. split; [|constructor]. unfold restore. rewrite C10. destruct (m_save_active m) eqn:SA; [|exact CA].
    constructor; cbn [m_predictor m_params m_wobble m_pos m_stylus m_loop m_last m_saved_predictor m_saved_last m_save_active]; auto; try congruence.
    + rewrite C1, C8. destruct (m_saved_predictor m); reflexivity.
    + unfold pos_restore. rewrite C5. destruct (pm_saved (m_pos m)); cbn [pm_state]; [reflexivity|exact C4].
    + unfold pos_restore. rewrite C5. destruct (pm_saved (m_pos m)) eqn:PV; cbn [pm_saved]; [reflexivity|rewrite C5, PV; reflexivity].
Qed.

Lemma run_quiet : forall fuel cs m n, quiet m n -> cons m -> cons n ->
  both (fun x y => quiet (fst x) (fst y) /\ cons (fst x) /\ cons (fst y) /\ Forall2 reply_alike (snd x) (snd y))
    (run fuel m cs) (run fuel n (map unmitigated cs)).
Proof.
  intros fuel. induction cs as [|c cs IH]; intros m n CA CM CN; cbn [run map].
  - cbn. auto 10.
  - pose proof (step_quiet fuel m n c CA CM CN) as ST.
    destruct (step fuel m c) as [[m1 r1]| |] eqn:S1, (step fuel n (unmitigated c)) as [[n1 r2]| |] eqn:S2; cbn [obind both]; try exact I.
    2:{ destruct (run fuel m1 cs) as [[m2 q1]| |]; exact I. }
    2:{ destruct (run fuel m1 cs) as [[m2 q1]| |]; exact I. }
    cbn [both obind fst snd] in *. destruct ST as [CA1 RR].
    specialize (IH m1 n1 CA1 (cons_step _ _ _ _ _ CM S1) (cons_step _ _ _ _ _ CN S2)).
    destruct (run fuel m1 cs) as [[m2 q1]| |], (run fuel n1 (map unmitigated cs)) as [[n2 q2]| |]; cbn [both obind fst snd] in *; try exact I.
    destruct IH as (I1 & I2 & I3 & I6). auto 10.
Qed.
End Quiet.

(** ** C34: in any arithmetic *)
(** When a call returns both with and without mitigation, it has the same status
    and the same number of results. *)
Theorem C34_same_status_and_count : forall (A : Arith) fuel hist cs qs qs',
  answers fuel hist cs = Ret qs -> answers fuel (map unmitigated hist) (map unmitigated cs) = Ret qs' -> Forall2 reply_alike qs qs'.
Proof.
  intros A fuel hist cs qs qs' H H'. unfold answers in *.
  pose proof (run_quiet fuel hist modeler0 modeler0 quiet0 cons0 cons0) as K.
  destruct (run fuel modeler0 hist) as [[m rs]| |]; try discriminate H. destruct (run fuel modeler0 (map unmitigated hist)) as [[n rs']| |]; try discriminate H'.
  cbn [both obind fst snd] in *. destruct K as (K1 & K3 & K4 & _).
  pose proof (run_quiet fuel cs m n K1 K3 K4) as L.
  destruct (run fuel m cs) as [[m2 r2]| |]; try discriminate H. destruct (run fuel n (map unmitigated cs)) as [[n2 q2]| |]; try discriminate H'.
  cbn [both obind fst snd] in *. injection H as <-. injection H' as <-. apply L.
Qed.
