(** * Properties of the API protocol, for every arithmetic.

    All statements are about histories of API calls on a newly constructed
    StrokeModeler and the replies to them (see Spec.v).  [fuel] bounds the number
    of iterations of the angle-normalisation loops; all statements hold for every
    value of it. *)
From Verif Require Export Hist.
From Coq Require Import Lia.

Section API.
Context {A : Arith}.
Variable fuel : nat.

Notation answers := (answers fuel).
Notation after := (after fuel).
Notation indistinguishable := (indistinguishable fuel).
Notation indistinguishable_by P := (indistinguishable_by P fuel).

(** ** Preliminaries *)
Lemma after_state : forall hist s, after hist s ->
  exists m rs, run fuel modeler0 hist = Ret (m, rs) /\ tracks s m /\ good m.
Proof.
  intros hist s H. apply after_tracks in H. destruct H as (m & rs & R & _ & T).
  exists m, rs. split; [assumption|]. split; [assumption|]. eapply good_run; [apply good0|eassumption].
Qed.

Lemma answers_step1 : forall hist m rs c,
  run fuel modeler0 hist = Ret (m, rs) ->
  answers hist [c] = let* '(_, r) := step fuel m c in Ret [r].
Proof.
  intros. rewrite (answers_from _ _ _ _ _ H). cbn. destruct (step fuel m c) as [[m' r]| |]; reflexivity.
Qed.

Lemma run_snoc : forall hist m rs c,
  run fuel modeler0 hist = Ret (m, rs) ->
  run fuel modeler0 (hist ++ [c]) = let* '(m', r) := step fuel m c in Ret (m', rs ++ [r]).
Proof.
  intros. rewrite run_app, H. cbn. destruct (step fuel m c) as [[m' r]| |]; reflexivity.
Qed.

(** A call that returns and leaves the state alone (up to the scratch buffer). *)
Lemma indist_snoc : forall hist m rs c m' r,
  run fuel modeler0 hist = Ret (m, rs) -> step fuel m c = Ret (m', r) -> sim true m' m ->
  indistinguishable (hist ++ [c]) hist.
Proof.
  intros. eapply indist_sim; [rewrite (run_snoc _ _ _ _ H), H0; reflexivity|eassumption|assumption].
Qed.

(** ** C01 *)
Definition unconf (m : Modeler) : Prop :=
  m_params m = None /\ m_predictor m = None /\ m_saved_predictor m = None /\ m_last m = None /\ m_saved_last m = None.

Definition simU (m1 m2 : Modeler) : Prop := sim true m1 m2 \/ (unconf m1 /\ unconf m2).

Definition nofp (s : status) : Prop := match s with FailedPrecondition _ => False | _ => True end.
Lemma nofp_and : forall a b, nofp a -> nofp b -> nofp (and_then a b).
Proof. intros [] b; cbn; auto. Qed.
Lemma nofp_if : forall (b : bool) x y, nofp x -> nofp y -> nofp (if b then x else y).
Proof. intros []; auto. Qed.

Lemma validate_params_nofp : forall p, nofp (validate_params p).
Proof.
  intros p. unfold validate_params, validate_prediction. destruct (p_prediction p);
  unfold validate_kalman, validate_wobble, validate_position, validate_loop, validate_sampling,
        validate_stylus, validate_gt0_i, validate_gt0_d, validate_gt0_f,
        validate_ge0_d, validate_ge0_f, validate_finite_f, validate_finite_d; cbv zeta;
  repeat (first [apply nofp_and | apply nofp_if | exact I]).
Qed.

Lemma unconf_step : forall m c, unconf m ->
  (exists p, c = CReset p /\ validate_params p = OkStatus) \/
  (exists m' r, step fuel m c = Ret (m', r) /\ unconf m' /\ unconfigured_reply c r).
Proof.
  intros m c (U1 & U2 & U3 & U4 & U5). destruct c; cbn.
  - destruct (validate_params p) eqn:V.
    + left. eauto.
    + exfalso. pose proof (validate_params_nofp p) as K. rewrite V in K. exact K.
    + right. exists m, (RStatus (InvalidArgument msg)). unfold reset_params. rewrite V. cbn. repeat split; eauto.
  - right. unfold reset_keep. rewrite U1. exists m. eexists. repeat split; eauto.
  - right. unfold update. rewrite U1. exists m. eexists. repeat split; eauto.
  - right. unfold predict. rewrite U1. exists m. eexists. repeat split; eauto.
  - right. exists (save m), RVoid. repeat split; cbn; auto. rewrite U2. assumption.
  - right. exists (restore m), RVoid. unfold restore. destruct (m_save_active m); repeat split; cbn; auto.
    rewrite U3. assumption.
Qed.

Lemma unconf0 : unconf modeler0.
Proof. repeat split. Qed.

Lemma unconf_reply_eq : forall m1 m2 c, unconf m1 -> unconf m2 ->
  same_outcome simU (step fuel m1 c) (step fuel m2 c).
Proof.
  intros m1 m2 c U V.
  destruct (unconf_step m1 c U) as [(p & -> & VP)|(m1' & r1 & S1 & U1 & _)].
  - cbn. unfold reset_params. rewrite VP. cbn. split; [reflexivity|]. left.
    destruct U as (A1 & A2 & A3 & A4 & A5), V as (B1 & B2 & B3 & B4 & B5).
    constructor; cbn; auto; try congruence.
    intros [H|[H _]]; congruence.
  - destruct (unconf_step m2 c V) as [(p & -> & VP)|(m2' & r2 & S2 & V1 & _)].
    + exfalso. cbn in S1. unfold reset_params in S1. rewrite VP in S1. inversion S1; subst.
      destruct U1 as (U1 & _). discriminate.
    + rewrite S1, S2. cbn. split; [|right; auto].
      destruct U as (A1 & _), V as (B1 & _). revert S1 S2.
      destruct c; cbn; unfold reset_params, reset_keep, update, predict; rewrite ?A1, ?B1;
        try (destruct (validate_params p)); cbn; intros S1 S2; inversion S1; inversion S2; reflexivity.
Qed.

Lemma simU_run : forall cs m1 m2, simU m1 m2 ->
  match run fuel m1 cs, run fuel m2 cs with
  | Ret (_, r1), Ret (_, r2) => r1 = r2
  | UB k1, UB k2 => k1 = k2
  | Diverge, Diverge => True
  | _, _ => False
  end.
Proof.
  induction cs as [|c cs IH]; intros m1 m2 S; [cbn; auto|]. cbn [run].
  assert (K : same_outcome simU (step fuel m1 c) (step fuel m2 c)).
  { destruct S as [S|[U V]]; [|apply unconf_reply_eq; assumption].
    pose proof (sim_step true fuel m1 m2 c S ltac:(discriminate)) as K. unfold same_outcome in *.
    destruct (step fuel m1 c) as [[m1' r1]| |], (step fuel m2 c) as [[m2' r2]| |]; auto.
    destruct K; split; [assumption|left; assumption]. }
  unfold same_outcome in K.
  destruct (step fuel m1 c) as [[m1' r1]| |], (step fuel m2 c) as [[m2' r2]| |]; cbn; try contradiction; auto.
  destruct K as [-> K]. specialize (IH _ _ K).
  destruct (run fuel m1' cs) as [[a ra]| |], (run fuel m2' cs) as [[b rb]| |]; cbn; try contradiction; auto.
  congruence.
Qed.

(** As long as every Reset(params) fails, every call fails as documented,
    whatever the calls are and however many. *)
Theorem C01_unconfigured_replies : forall cs,
  (forall p, In (CReset p) cs -> answers [] [CReset p] <> Ret [RStatus OkStatus]) ->
  exists rs, answers [] cs = Ret rs /\ Forall2 unconfigured_reply cs rs.
Proof.
  intros cs. unfold Spec.answers. cbn [run obind].
  generalize unconf0. intros U0 H.
  assert (G : forall m, unconf m -> exists m' rs, run fuel m cs = Ret (m', rs) /\ Forall2 unconfigured_reply cs rs).
  { clear U0. induction cs as [|c cs IH]; intros m U.
    - exists m, []. split; [reflexivity|constructor].
    - destruct (unconf_step m c U) as [(p & -> & VP)|(m1 & r1 & S1 & U1 & Q)].
      + exfalso. apply (H p); [left; reflexivity|]. cbn. unfold reset_params. rewrite VP. reflexivity.
      + destruct (IH ltac:(intros; apply H; right; assumption) m1 U1) as (m' & rs & R & FA).
        exists m', (r1 :: rs). cbn. rewrite S1. cbn. rewrite R. split; [reflexivity|constructor; assumption]. }
  destruct (G _ U0) as (m' & rs & R & FA). rewrite R. cbn. eauto.
Qed.

(** ... and such a history leaves no trace: the modeler is as newly constructed. *)
Theorem C01_unconfigured_no_trace : forall hist s,
  after hist s -> ps_params s = None -> indistinguishable hist [].
Proof.
  intros hist s H P cs. apply after_state in H. destruct H as (m & rs & R & (T1 & _) & G).
  rewrite (answers_from _ _ _ _ _ R), (answers_from fuel [] modeler0 [] cs eq_refl).
  assert (U : unconf m). { rewrite P in T1. destruct (g_none _ G) as (N1 & N2 & N3 & N4); [congruence|]. repeat split; congruence. }
  pose proof (simU_run cs m modeler0 (or_intror (conj U unconf0))) as K.
  destruct (run fuel m cs) as [[a ra]| |], (run fuel modeler0 cs) as [[b rb]| |]; cbn; try contradiction; congruence.
Qed.

(** Reset(params) answers the same whatever the history, and only ever OK or
    InvalidArgument. *)
Theorem C02_reset_history_independent : forall hist s p,
  after hist s -> answers hist [CReset p] = answers [] [CReset p].
Proof.
  intros hist s p H. apply after_state in H. destruct H as (m & rs & R & _ & _).
  rewrite (answers_step1 _ _ _ _ R), (answers_step1 [] modeler0 [] _ eq_refl). cbn.
  unfold reset_params. destruct (validate_params p); reflexivity.
Qed.

Theorem C02_reset_status : forall hist s p,
  after hist s ->
  answers hist [CReset p] = Ret [RStatus OkStatus] \/
  exists msg, answers hist [CReset p] = Ret [RStatus (InvalidArgument msg)].
Proof.
  intros hist s p H. rewrite (C02_reset_history_independent _ _ p H).
  destruct (unconf_step modeler0 (CReset p) unconf0) as [(q & E & V)|(m' & r & S & _ & Q)].
  - inversion E; subst. left. cbn. unfold reset_params. rewrite V. reflexivity.
  - right. destruct Q as [msg ->]. exists msg. rewrite (answers_step1 [] modeler0 [] _ eq_refl), S. reflexivity.
Qed.

(** ** C03 *)
Theorem C03_failed_reset_no_effect : forall hist p e,
  answers hist [CReset p] = Ret [RStatus e] -> is_error e ->
  indistinguishable (hist ++ [CReset p]) hist.
Proof.
  intros hist p e H E. apply answers1 in H. destruct H as (m & rs & m' & r0 & R & S & Q & _).
  inversion Q; subst. eapply indist_snoc; eauto. cbn in S. unfold reset_params in S.
  destruct (validate_params p); inversion S; subst; try apply sim_refl. congruence.
Qed.

(** The failing parameterless Reset also has no effect. *)
Theorem C03_failed_reset_keep_no_effect : forall hist e,
  answers hist [CResetKeep] = Ret [RStatus e] -> is_error e ->
  indistinguishable (hist ++ [CResetKeep]) hist.
Proof.
  intros hist e H E. apply answers1 in H. destruct H as (m & rs & m' & r0 & R & S & Q & _).
  inversion Q; subst. eapply indist_snoc; eauto. cbn in S. unfold reset_keep in S.
  destruct (m_params m); inversion S; subst; try apply sim_refl. congruence.
Qed.

(** ** C04, C05 *)
Theorem C04_failed_update_keeps_vector : forall hist i rs e rs',
  answers hist [CUpdate i rs] = Ret [RResults e rs'] -> is_error e -> rs' = rs.
Proof.
  intros hist i rs e rs' H E. apply answers1 in H. destruct H as (m & rs0 & m' & r0 & R & S & Q & _).
  inversion Q; subst. cbn in S. bind_inv S. destruct x as [[m1 s1] rs1]. inversion S; subst.
  apply update_inv in E0. destruct E0 as (out & -> & U). destruct U; try congruence; apply app_nil_r.
Qed.

Theorem C05_update_appends : forall hist i rs s rs',
  answers hist [CUpdate i rs] = Ret [RResults s rs'] ->
  exists out, rs' = rs ++ out /\
    forall rs2, answers hist [CUpdate i rs2] = Ret [RResults s (rs2 ++ out)].
Proof.
  intros hist i rs e rs' H. apply answers1 in H. destruct H as (m & rs0 & m' & r0 & R & S & Q & _).
  inversion Q; subst. cbn in S. bind_inv S. destruct x as [[m1 s1] rs1]. inversion S; subst.
  rewrite update_vector in E. destruct (update fuel m i []) as [[[m2 s2] out]| |] eqn:U; try discriminate.
  cbn in E. inversion E; subst. exists out. split; [reflexivity|]. intros rs2.
  rewrite (answers_step1 _ _ _ _ R). cbn. rewrite update_vector, U. reflexivity.
Qed.

Theorem C05_update_oblivious : forall hist i rs rs2,
  indistinguishable (hist ++ [CUpdate i rs]) (hist ++ [CUpdate i rs2]).
Proof.
  intros hist i rs rs2 cs. unfold Spec.answers. rewrite !run_app.
  destruct (run fuel modeler0 hist) as [[m r]| |]; cbn; try reflexivity.
  rewrite (update_vector fuel m i rs), (update_vector fuel m i rs2).
  destruct (update fuel m i []) as [[[m2 s2] out]| |]; cbn; reflexivity.
Qed.

(** ** C06 (the [Move] part is in Props_Float.v), C11 *)
Lemma model_stylus_length : forall tips sm lm v pt lm' out,
  model_stylus_loop fuel tips sm lm v pt = Ret (lm', out) -> List.length out = List.length tips.
Proof.
  induction tips as [|t tips IH]; intros sm lm v pt lm' out H; cbn in H.
  - inversion H; reflexivity.
  - bind_inv H. bind_inv H. destruct (loop_update lm _ _). bind_inv H. destruct x1. inversion H; subst.
    cbn. f_equal. eauto.
Qed.

Theorem C11_down_echo : forall hist i rs rs',
  answers hist [CUpdate i rs] = Ret [RResults OkStatus rs'] -> i_event i = EDown ->
  rs' = rs ++ [echo i].
Proof.
  intros hist i rs rs' H E. apply answers1 in H. destruct H as (m & rs0 & m' & r0 & R & S & Q & _).
  inversion Q; subst. cbn in S. bind_inv S. destruct x as [[m1 s1] rs1]. inversion S; subst.
  apply update_inv in E0. destruct E0 as (out & -> & U). inversion U; try congruence. reflexivity.
Qed.

Theorem C06_up_at_least_one : forall hist i rs rs',
  answers hist [CUpdate i rs] = Ret [RResults OkStatus rs'] -> i_event i = EUp ->
  exists r out, rs' = rs ++ r :: out.
Proof.
  intros hist i rs rs' H E. apply answers1 in H. destruct H as (m & rs0 & m' & r0 & R & S & Q & _).
  inversion Q; subst. cbn in S. bind_inv S. destruct x as [[m1 s1] rs1]. inversion S; subst.
  apply update_inv in E0. destruct E0 as (out & -> & U). inversion U; try congruence.
  match goal with H : model_stylus _ _ _ _ _ = _ |- _ => apply model_stylus_length in H; rename H into L end.
  destruct out as [|r out]; [|eauto].
  destruct (tips1 ++ tips2); discriminate L.
Qed.

(** ** C07 *)
Lemma validate_input_cases : forall i, validate_input i = OkStatus \/ exists msg, validate_input i = InvalidArgument msg.
Proof.
  intros i. unfold validate_input, validate_finite_f, validate_finite_d.
  destruct (i_event i); try (right; eauto; fail);
    destruct (fisnan (vx (i_pos i))); cbn; eauto; destruct (fisinf (vx (i_pos i))); cbn; eauto;
    destruct (fisnan (vy (i_pos i))); cbn; eauto; destruct (fisinf (vy (i_pos i))); cbn; eauto;
    destruct (disnan (i_time i)); cbn; eauto; destruct (disinf (i_time i)); cbn; eauto.
Qed.

(** A Down inside a stroke and a Move or Up outside one are rejected, with the
    documented status codes, and leave no trace. *)
Theorem C07_wrong_phase_rejected : forall hist s i rs,
  after hist s ->
  (if in_stroke s then i_event i = EDown else i_event i = EMove \/ i_event i = EUp) ->
  exists e, answers hist [CUpdate i rs] = Ret [RResults e rs] /\
    ((exists msg, e = FailedPrecondition msg) \/ (exists msg, e = InvalidArgument msg)) /\
    indistinguishable (hist ++ [CUpdate i rs]) hist.
Proof.
  intros hist s i rs H W. apply after_state in H. destruct H as (m & r0 & R & (T1 & T2 & _) & G).
  assert (K : exists e, update fuel m i rs = Ret (m, e, rs) /\
    ((exists msg, e = FailedPrecondition msg) \/ (exists msg, e = InvalidArgument msg))).
  { unfold update. destruct (m_params m) as [p|]; [|eauto 6].
    destruct (validate_input_cases i) as [V|[msg V]]; rewrite V; [|eauto 6].
    unfold in_stroke in W. rewrite T2 in W. destruct (m_last m) as [l|] eqn:L; cbn in W.
    - destruct (input_eqb _ _); [eauto 6|]. destruct (dltb _ _); [eauto 6|]. rewrite W.
      unfold process_down. rewrite L. eauto 6.
    - destruct W as [W|W]; rewrite W; unfold process_move, process_up; rewrite L; eauto 6. }
  destruct K as (e & U & K). exists e.
  assert (ST : step fuel m (CUpdate i rs) = Ret (m, RResults e rs)) by (cbn; rewrite U; reflexivity).
  split; [|split].
  - rewrite (answers_step1 _ _ _ _ R), ST. reflexivity.
  - assumption.
  - eapply indist_snoc; eauto using sim_refl.
Qed.

Lemma accepted_wf : forall cs m m' rs,
  no_call is_reset cs -> no_call is_restore cs ->
  run fuel m cs = Ret (m', rs) ->
  well_formed (match m_last m with Some _ => true | None => false end) (accepted_events cs rs).
Proof.
  induction cs as [|c cs IH]; intros m m' rs N1 N2 R; cbn in R.
  - inversion R; subst. constructor.
  - unfold no_call in *. cbn in N1, N2. apply andb_prop in N1, N2. destruct N1 as [A1 B1], N2 as [A2 B2].
    bind_inv R. destruct x as [m1 r1]. bind_inv R. destruct x as [m2 rs2]. inversion R; subst.
    specialize (IH _ _ _ B1 B2 E0).
    destruct c; try discriminate A1; try discriminate A2; cbn in E |- *.
    + bind_inv E. destruct x as [[m3 s3] rs3]. inversion E; subst.
      apply update_inv in E1. destruct E1 as (out & -> & U). destruct U.
      * destruct s; try congruence; exact IH.
      * rewrite H1, H2. cbn. constructor. exact IH.
      * destruct e; try congruence; cbn in IH; exact IH.
      * rewrite H1, H2. cbn. constructor. exact IH.
      * rewrite H1, H2. cbn. constructor. exact IH.
    + bind_inv E. destruct x as [[m3 s3] rs3]. inversion E; subst.
      apply predict_inv in E1. destruct E1; exact IH.
    + inversion E; subst. exact IH.
Qed.

(** Between Resets and Restores the accepted events are a stretch of
    (Down Move* Up)*, starting inside or outside a stroke as the protocol
    automaton says. *)
Theorem C07_accepted_events_well_formed : forall hist s cs rs,
  after hist s -> no_call is_reset cs -> no_call is_restore cs ->
  answers hist cs = Ret rs ->
  well_formed (in_stroke s) (accepted_events cs rs).
Proof.
  intros hist s cs rs H N1 N2 AN. apply after_state in H. destruct H as (m & r0 & R & (T1 & T2 & _) & G).
  rewrite (answers_from _ _ _ _ _ R) in AN. bind_inv AN. destruct x as [m' r']. inversion AN; subst.
  pose proof (accepted_wf _ _ _ _ N1 N2 E) as W. unfold in_stroke. rewrite T2.
  destruct (m_last m); exact W.
Qed.

(** After a (successful) Reset no stroke is in progress. *)
Theorem C07_reset_ends_stroke : forall hist c s,
  is_reset c = true -> after (hist ++ [c]) s -> answers hist [c] = Ret [RStatus OkStatus] -> in_stroke s = false.
Proof.
  intros hist c s IR H AN. apply after_state in H. destruct H as (m & r0 & R & (T1 & T2 & _) & G).
  apply answers1 in AN. destruct AN as (m1 & rs1 & m2 & r1 & R1 & S1 & Q & R2).
  rewrite R in R2. inversion R2; subst. inversion Q; subst.
  unfold in_stroke. rewrite T2. destruct c; try discriminate IR; cbn in S1.
  - unfold reset_params in S1. destruct (validate_params p); inversion S1; subst. reflexivity.
  - unfold reset_keep in S1. destruct (m_params m1); inversion S1; subst. reflexivity.
Qed.

Lemma stylus_first : forall p pos t a b c,
  validate_stylus p = OkStatus ->
  exists sm, forall m, stylus_update (stylus_reset m p) pos t a b c =
    Ret (mkStylus sm (sm_saved m) false p).
Proof.
  intros p pos t a b c V.
  assert (TR : forall r, stylus_trim p [r] = Ret [r]).
  { intros r. unfold validate_stylus in V. cbn. unfold should_drop, size_gt.
    destruct (sy_normal p).
    - unfold validate_gt0_i in V. destruct (Z.leb_spec (sy_min_samples p) 0); [discriminate|].
      destruct (Z.ltb_spec (sy_min_samples p) 0); [lia|]. cbn.
      destruct (Z.ltb_spec (sy_min_samples p) 1); [lia|]. reflexivity.
    - unfold validate_gt0_i in V. destruct (Z.leb_spec (sy_max_samples p) 0); [discriminate|].
      destruct (Z.ltb_spec (sy_max_samples p) 0); [lia|]. cbn.
      destruct (Z.ltb_spec (sy_max_samples p) 1); [lia|]. reflexivity. }
  unfold stylus_update. cbn -[stylus_trim].
  destruct (negb (sy_normal p) && unknown_value a && unknown_value b && unknown_value c).
  - eexists. intros. reflexivity.
  - eexists. intros. rewrite TR. cbn. reflexivity.
Qed.

Lemma and_then_ok : forall a b, and_then a b = OkStatus -> a = OkStatus /\ b = OkStatus.
Proof. intros [] b H; cbn in H; auto; discriminate. Qed.

Lemma validate_params_parts : forall p, validate_params p = OkStatus ->
  validate_wobble (p_wobble p) = OkStatus /\ validate_position (p_position p) = OkStatus /\
  validate_sampling (p_sampling p) = OkStatus /\ validate_stylus (p_stylus p) = OkStatus /\
  validate_prediction (p_prediction p) = OkStatus /\
  lp_enabled (pp_loop (p_position p)) && negb (sy_normal (p_stylus p)) = false.
Proof.
  intros p H. unfold validate_params in H. destruct (_ && _) eqn:E; [discriminate|].
  repeat (apply and_then_ok in H; destruct H as [? H]). repeat split; assumption.
Qed.

(** Liveness: outside a stroke, a Down with a valid input is always accepted. *)
Theorem C07_down_accepted : forall hist s p i rs,
  after hist s -> ps_params s = Some p -> in_stroke s = false ->
  validate_input i = OkStatus -> i_event i = EDown ->
  answers hist [CUpdate i rs] = Ret [RResults OkStatus (rs ++ [echo i])].
Proof.
  intros hist s p i rs H P NS V EV. apply after_state in H. destruct H as (m & r0 & R & (T1 & T2 & _) & G).
  rewrite (answers_step1 _ _ _ _ R). cbn. unfold update.
  rewrite <- T1, P, V. unfold in_stroke in NS. rewrite T2 in NS. destruct (m_last m) eqn:L; [discriminate|].
  rewrite EV. unfold process_down. rewrite L.
  assert (VP : validate_params p = OkStatus) by (apply (g_valid _ G); congruence).
  apply validate_params_parts in VP. destruct VP as (_ & _ & _ & VS & _).
  destruct (stylus_first (p_stylus p) (i_pos i) (i_time i) (i_pressure i) (i_tilt i) (i_orient i) VS) as [sm SM].
  rewrite SM. cbn. destruct (m_predictor m) as [[pp sp l|k]|]; cbn; reflexivity.
Qed.

(** ** C08 *)
Theorem C08_stale_input_rejected : forall hist s l i rs,
  after hist s -> ps_last s = Some l ->
  dltb (i_time i) (i_time l) = true \/ input_eqb l i = true ->
  (exists msg, answers hist [CUpdate i rs] = Ret [RResults (InvalidArgument msg) rs]) /\
  indistinguishable (hist ++ [CUpdate i rs]) hist.
Proof.
  intros hist s l i rs H PL W. apply after_state in H. destruct H as (m & r0 & R & (T1 & T2 & _) & G).
  assert (K : exists msg, update fuel m i rs = Ret (m, InvalidArgument msg, rs)).
  { unfold update. rewrite PL in T2. destruct (m_last m) as [last|] eqn:L; [|discriminate].
    cbn in T2. inversion T2; subst.
    destruct (m_params m) as [p|] eqn:P; [|destruct (g_none _ G P) as (_ & _ & N & _); congruence].
    destruct (validate_input_cases i) as [V|[msg V]]; rewrite V; [|eauto].
    destruct (input_eqb _ _); [eauto|]. destruct W as [W|W]; [|discriminate]. rewrite W. eauto. }
  destruct K as (msg & U).
  assert (ST : step fuel m (CUpdate i rs) = Ret (m, RResults (InvalidArgument msg) rs)) by (cbn; rewrite U; reflexivity).
  split.
  - exists msg. rewrite (answers_step1 _ _ _ _ R), ST. reflexivity.
  - eapply indist_snoc; eauto using sim_refl.
Qed.

Theorem C08_accepted_not_earlier : forall hist s l i rs rs',
  after hist s -> ps_last s = Some l ->
  answers hist [CUpdate i rs] = Ret [RResults OkStatus rs'] ->
  dltb (i_time i) (i_time l) = false /\ input_eqb l i = false.
Proof.
  intros hist s l i rs rs' H PL AN.
  split; apply not_true_iff_false; intros D;
    destruct (C08_stale_input_rejected hist s l i rs H PL (ltac:(auto))) as [(msg & K) _]; congruence.
Qed.

(** ** C09 (see Props_Float.v for what [validate_input] rejects) *)
Theorem C09_invalid_input_rejected : forall hist s p i rs,
  after hist s -> ps_params s = Some p -> validate_input i <> OkStatus ->
  (exists msg, answers hist [CUpdate i rs] = Ret [RResults (InvalidArgument msg) rs]) /\
  indistinguishable (hist ++ [CUpdate i rs]) hist.
Proof.
  intros hist s p i rs H P NV. apply after_state in H. destruct H as (m & r0 & R & (T1 & T2 & _) & G).
  assert (K : exists msg, update fuel m i rs = Ret (m, InvalidArgument msg, rs)).
  { unfold update. rewrite <- T1, P. destruct (validate_input_cases i) as [V|[msg V]]; rewrite V; [congruence|eauto]. }
  destruct K as (msg & U).
  assert (ST : step fuel m (CUpdate i rs) = Ret (m, RResults (InvalidArgument msg) rs)) by (cbn; rewrite U; reflexivity).
  split.
  - exists msg. rewrite (answers_step1 _ _ _ _ R), ST. reflexivity.
  - eapply indist_snoc; eauto using sim_refl.
Qed.

(** ** C10 *)
Lemma number_of_steps_msg : forall tip a b sp pp e,
  number_of_steps tip a b sp pp = Ret (IErr e) ->
  e = InvalidArgument msg_non_finite \/ e = InvalidArgument msg_too_far.
Proof.
  intros tip a b sp pp e NS. unfold number_of_steps, to_int in NS.
  repeat match type of NS with
  | match ?x with _ => _ end = _ => destruct x
  | (if ?x then _ else _) = _ => destruct x
  | _ => discriminate
  | Ret _ = Ret _ => inversion NS; subst; auto
  end.
Qed.

(** Every rejected Update leaves no trace, except a Move rejected with one of the
    two messages of NumberOfStepsBetweenInputs. *)
Theorem C10_rejected_update_no_trace_partial : forall hist i rs e rs',
  answers hist [CUpdate i rs] = Ret [RResults e rs'] -> is_error e ->
  (i_event i = EMove -> e <> InvalidArgument msg_non_finite /\ e <> InvalidArgument msg_too_far) ->
  indistinguishable (hist ++ [CUpdate i rs]) hist.
Proof.
  intros hist i rs e rs' H E NM. apply answers1 in H. destruct H as (m & rs0 & m' & r0 & R & S & Q & _).
  inversion Q; subst. eapply indist_snoc; eauto.
  cbn in S. bind_inv S. destruct x as [[m1 s1] rs1]. inversion S; subst.
  apply update_inv in E0. destruct E0 as (out & -> & U). destruct U; try congruence.
  - apply sim_refl.
  - apply number_of_steps_msg in H7. destruct (NM H1). destruct H7; congruence.
Qed.

(** ** C12 *)
Theorem C12_predict_no_trace : forall hist rs r,
  answers hist [CPredict rs] = Ret r ->
  indistinguishable (hist ++ [CPredict rs]) hist.
Proof.
  intros hist rs r H. apply answers1 in H. destruct H as (m & rs0 & m' & r0 & R & S & Q & _).
  eapply indist_snoc; eauto.
  cbn in S. bind_inv S. destruct x as [[m1 s1] rs1]. inversion S; subst.
  apply predict_inv in E. destruct E; [apply sim_refl|].
  constructor; cbn; auto using pred_rel_eq.
Qed.

Lemma sim_sym_refl_run : forall cs m1 m2 m1' rs, sim true m1 m2 -> run fuel m1 cs = Ret (m1', rs) ->
  exists m2', run fuel m2 cs = Ret (m2', rs) /\ sim true m1' m2'.
Proof.
  intros cs m1 m2 m1' rs S R. pose proof (sim_run true fuel cs m1 m2 S ltac:(discriminate)) as K.
  rewrite R in K. destruct (run fuel m2 cs) as [[b rb]| |]; try contradiction. destruct K as [-> K]. eauto.
Qed.

Lemma predicts_removable : forall cs m1 m2 m1' rs, sim true m1 m2 ->
  run fuel m1 cs = Ret (m1', rs) ->
  exists m2', run fuel m2 (filter (fun c => negb (is_predict c)) cs) = Ret (m2', other_replies cs rs) /\
    sim true m1' m2'.
Proof.
  induction cs as [|c cs IH]; intros m1 m2 m1' rs S R; cbn in R.
  - inversion R; subst. exists m2. split; [reflexivity|assumption].
  - bind_inv R. destruct x as [m3 r3]. bind_inv R. destruct x as [m4 rs4]. inversion R; subst.
    cbn [filter other_replies]. destruct (is_predict c) eqn:P; cbn [negb run].
    + destruct c; try discriminate P. cbn in E. bind_inv E. destruct x as [[m5 s5] rs5]. inversion E; subst.
      apply predict_inv in E1.
      assert (S3 : sim true m3 m2).
      { destruct E1; [assumption|]. destruct S. constructor; cbn in *; auto. }
      destruct (IH _ _ _ _ S3 E0) as (m2' & R2 & S2). eauto.
    + pose proof (sim_step true fuel m1 m2 c S ltac:(discriminate)) as K. unfold same_outcome in K.
      rewrite E in K. destruct (step fuel m2 c) as [[m6 r6]| |] eqn:E6; try contradiction. destruct K as [-> K].
      destruct (IH _ _ _ _ K E0) as (m2' & R2 & S2). cbn [obind]. rewrite R2. cbn. eauto.
Qed.

(** Removing (equivalently, inserting) any number of Predict calls anywhere does
    not change the reply to any other call, nor what comes after. *)
Theorem C12_predicts_removable : forall cs rs,
  answers [] cs = Ret rs ->
  answers [] (filter (fun c => negb (is_predict c)) cs) = Ret (other_replies cs rs) /\
  indistinguishable cs (filter (fun c => negb (is_predict c)) cs).
Proof.
  intros cs rs H. apply answers_ret in H. destruct H as (m & r0 & m' & R & R2).
  cbn in R. inversion R; subst.
  destruct (predicts_removable _ _ _ _ _ (sim_refl true modeler0) R2) as (m2' & R3 & S).
  split.
  - unfold Spec.answers. cbn. rewrite R3. reflexivity.
  - eapply indist_sim; eauto.
Qed.

(** ** C13 *)
(** Unconfigured, or no stroke in progress: FailedPrecondition and an empty vector. *)
Theorem C13_predict_needs_stroke : forall hist s rs,
  after hist s -> ps_params s = None \/ in_stroke s = false ->
  exists msg, answers hist [CPredict rs] = Ret [RResults (FailedPrecondition msg) []].
Proof.
  intros hist s rs H W. apply after_state in H. destruct H as (m & r0 & R & (T1 & T2 & _) & G).
  rewrite (answers_step1 _ _ _ _ R). cbn. unfold predict.
  destruct (m_params m) as [p|] eqn:P; [|eexists; reflexivity]. destruct (m_predictor m); [|eexists; reflexivity].
  unfold in_stroke in W. rewrite T2 in W. destruct (m_last m); [|eexists; reflexivity].
  destruct W; [congruence|discriminate].
Qed.

(** Prediction disabled: the same, provided the history never restored, or never
    enabled, prediction (see C13_disabled_refuted). *)
Theorem C13_predict_disabled_partial : forall hist s p rs,
  after hist s -> ps_params s = Some p -> prediction_on p = false ->
  no_call is_restore hist \/ no_call enables_prediction hist ->
  exists msg, answers hist [CPredict rs] = Ret [RResults (FailedPrecondition msg) []].
Proof.
  intros hist s p rs H P O W. apply after_state in H. destruct H as (m & r0 & R & (T1 & T2 & _) & G).
  rewrite (answers_step1 _ _ _ _ R). cbn. unfold predict. rewrite <- T1, P.
  assert (N : m_predictor m = None).
  { destruct W as [W|W].
    - assert (PL : plain m). { eapply plain_run; [exact W| |exact R]. reflexivity. }
      unfold plain in PL. rewrite <- T1, P, (make_predictor_off _ O) in PL.
      destruct (m_predictor m); [discriminate|reflexivity].
    - eapply bare_run; [exact W|exact bare0|exact R]. }
  rewrite N. eexists; reflexivity.
Qed.

(** Prediction enabled and a stroke in progress: Predict, if it returns,
    succeeds, and what it returns does not depend on the vector's contents. *)
Theorem C13_predict_succeeds : forall hist s p rs,
  after hist s -> ps_params s = Some p -> prediction_on p = true -> in_stroke s = true ->
  (forall r, answers hist [CPredict rs] = Ret r -> exists out, r = [RResults OkStatus out]) /\
  (forall rs2, answers hist [CPredict rs2] = answers hist [CPredict rs]).
Proof.
  intros hist s p rs H P O IS. apply after_state in H. destruct H as (m & r0 & R & (T1 & T2 & _) & G).
  split.
  - intros r. rewrite (answers_step1 _ _ _ _ R). cbn. intros AN.
    bind_inv AN. destruct x as [m1 r1]. bind_inv E. destruct x as [[m2 s2] out]. inversion E; subst.
    inversion AN; subst. apply predict_inv in E0. destruct E0; [|eauto].
    exfalso. destruct H0 as [N|[N|N]].
    + congruence.
    + destruct (g_on _ G p) as [K _]; [congruence|assumption|]. rewrite N in K. cbn in K.
      apply (make_predictor_on _ O). auto.
    + unfold in_stroke in IS. rewrite T2, N in IS. discriminate.
  - intros rs2. rewrite !(answers_step1 _ _ _ _ R). reflexivity.
Qed.

(** In every case the reply does not depend on the vector's previous contents. *)
Theorem C13_predict_replaces : forall hist rs rs2,
  answers hist [CPredict rs] = answers hist [CPredict rs2].
Proof. reflexivity. Qed.

(** ** C14, C15, C16, C17 *)
Lemma hygiene : forall hist s m rs,
  run fuel modeler0 hist = Ret (m, rs) -> tracks s m -> good m ->
  (match ps_params s with Some p => prediction_on p = true | None => True end) \/ no_call enables_prediction hist ->
  m_predictor m <> None \/ m_saved_predictor m = None.
Proof.
  intros hist s m rs R (T1 & _ & _) G [W|W].
  - rewrite T1 in W. destruct (m_params m) as [p|] eqn:P.
    + left. destruct (g_on _ G p P W) as [K _]. intros N. rewrite N in K. apply (make_predictor_on _ W). auto.
    + right. apply (g_none _ G P).
  - right. eapply bare_run; [exact W|exact bare0|exact R].
Qed.

Lemma kept_run : forall mid m0 m m' mrs,
  kept m0 m -> no_call is_reset mid -> no_call is_save mid ->
  run fuel m mid = Ret (m', mrs) -> no_accepted_down mid mrs -> kept m0 m'.
Proof.
  induction mid as [|c mid IH]; intros m0 m m' mrs K N1 N2 R ND; cbn in R.
  - inversion R; subst; assumption.
  - unfold no_call in *. cbn in N1, N2. apply andb_prop in N1, N2. destruct N1 as [A1 B1], N2 as [A2 B2].
    apply negb_true_iff in A1, A2.
    bind_inv R. destruct x as [m1 r1]. bind_inv R. destruct x as [m2 rs2]. inversion R; subst.
    cbn in ND. destruct ND as [ND1 ND2].
    eapply IH; [|exact B1|exact B2|exact E0|exact ND2]. eapply kept_step; eauto.
Qed.

Lemma kept0_run : forall mid m0 m m' mrs,
  kept0 m0 m -> no_call is_reset mid -> no_call is_save mid ->
  run fuel m mid = Ret (m', mrs) -> kept0 m0 m'.
Proof.
  induction mid as [|c mid IH]; intros m0 m m' mrs K N1 N2 R; cbn in R.
  - inversion R; subst; assumption.
  - unfold no_call in *. cbn in N1, N2. apply andb_prop in N1, N2. destruct N1 as [A1 B1], N2 as [A2 B2].
    apply negb_true_iff in A1, A2.
    bind_inv R. destruct x as [m1 r1]. bind_inv R. destruct x as [m2 rs2]. inversion R; subst.
    eapply IH; [|exact B1|exact B2|exact E0]. eapply kept0_step; eauto.
Qed.

(** Save, any calls but Reset and Save, Restore: indistinguishable from Save
    alone.  Conditions: no new stroke was begun in between (unless there was none
    in progress at the Save), and prediction is enabled or never was. *)
Theorem C14_restore_undoes_partial : forall hist s mid mrs,
  after hist s ->
  answers (hist ++ [CSave]) mid = Ret mrs ->
  no_call is_reset mid -> no_call is_save mid ->
  in_stroke s = false \/ no_accepted_down mid mrs ->
  (match ps_params s with Some p => prediction_on p = true | None => True end) \/ no_call enables_prediction hist ->
  indistinguishable (hist ++ [CSave] ++ mid ++ [CRestore]) (hist ++ [CSave]).
Proof.
  intros hist s mid mrs H AN N1 N2 W HY. apply after_state in H. destruct H as (m & r0 & R & T & G).
  pose proof (hygiene _ _ _ _ R T G HY) as HP.
  assert (RS : run fuel modeler0 (hist ++ [CSave]) = Ret (save m, r0 ++ [RVoid])).
  { rewrite run_app, R. reflexivity. }
  rewrite (answers_from _ _ _ _ _ RS) in AN. bind_inv AN. destruct x as [m1 r1]. inversion AN; subst.
  assert (RE : run fuel modeler0 (hist ++ [CSave] ++ mid ++ [CRestore]) = Ret (restore m1, (r0 ++ [RVoid]) ++ mrs ++ [RVoid])).
  { rewrite app_assoc, run_app, RS. cbn. rewrite run_app, E. reflexivity. }
  eapply indist_sim; [exact RE|exact RS|].
  destruct W as [W|W].
  - destruct T as (T1 & T2 & T3). unfold in_stroke in W. rewrite T2 in W.
    assert (L : m_last m = None) by (destruct (m_last m); [discriminate|reflexivity]).
    apply kept0_restore; auto. eapply kept0_run; [apply kept0_save; auto|exact N1|exact N2|exact E].
  - assert (K : kept m m1) by (eapply kept_run; [apply kept_save; auto|exact N1|exact N2|exact E|exact W]).
    rewrite (kept_restore _ _ K HP). 
    constructor; cbn; auto using pred_rel_eq.
Qed.

Theorem C15_save_invisible : forall hist cs,
  no_call is_restore cs ->
  answers (hist ++ [CSave]) cs = answers hist cs.
Proof.
  intros hist cs N. unfold Spec.answers. rewrite run_app.
  destruct (run fuel modeler0 hist) as [[m r]| |]; cbn; try reflexivity.
  pose proof (core_run fuel cs (save m) m eq_refl N) as K.
  destruct (run fuel (save m) cs) as [[a ra]| |], (run fuel m cs) as [[b rb]| |]; cbn; try contradiction; try congruence.
  destruct K as [-> _]. reflexivity.
Qed.

(** The client-side condition [ps_saved s = None]: no Save since the last
    successful Reset (or ever). *)
Theorem C16_restore_without_save : forall hist s,
  after hist s -> ps_saved s = None -> indistinguishable (hist ++ [CRestore]) hist.
Proof.
  intros hist s H PS. apply after_state in H. destruct H as (m & r0 & R & (T1 & T2 & T3) & G).
  eapply indist_snoc; [exact R|reflexivity|]. unfold restore.
  rewrite PS in T3. destruct (m_save_active m); [discriminate|]. apply sim_refl.
Qed.

Lemma indist_trans : forall a b c, indistinguishable a b -> indistinguishable b c -> indistinguishable a c.
Proof. intros a b c H1 H2 cs. rewrite H1. apply H2. Qed.
Lemma indist_sym : forall a b, indistinguishable a b -> indistinguishable b a.
Proof. intros a b H cs. symmetry. apply H. Qed.

Lemma no_call_app : forall f a b, no_call f a -> no_call f b -> no_call f (a ++ b).
Proof. intros f a b H1 H2. unfold no_call in *. rewrite forallb_app, H1, H2. reflexivity. Qed.
Lemma nad_app : forall a b ra rb, no_accepted_down a ra -> List.length ra = List.length a ->
  no_accepted_down b rb -> no_accepted_down (a ++ b) (ra ++ rb).
Proof.
  induction a as [|c a IH]; intros b ra rb H L H2; destruct ra as [|r ra]; try discriminate L; [assumption|].
  cbn in *. destruct H. split; [assumption|]. apply IH; auto.
Qed.

(** Restoring a second time, after further calls, gives the same modeler as
    restoring the first time. *)
Theorem C17_restore_repeatable_partial : forall hist s mid mrs mid2 mrs2,
  after hist s ->
  answers (hist ++ [CSave]) mid = Ret mrs ->
  answers (hist ++ [CSave] ++ mid ++ [CRestore]) mid2 = Ret mrs2 ->
  no_call is_reset (mid ++ mid2) -> no_call is_save (mid ++ mid2) ->
  in_stroke s = false \/ (no_accepted_down mid mrs /\ no_accepted_down mid2 mrs2) ->
  (match ps_params s with Some p => prediction_on p = true | None => True end) \/ no_call enables_prediction hist ->
  indistinguishable (hist ++ [CSave] ++ mid ++ [CRestore] ++ mid2 ++ [CRestore])
                    (hist ++ [CSave] ++ mid ++ [CRestore]).
Proof.
  intros hist s mid mrs mid2 mrs2 H A1 A2 N1 N2 W HY.
  unfold no_call in N1, N2. rewrite forallb_app in N1, N2. apply andb_prop in N1, N2.
  destruct N1 as [N11 N12], N2 as [N21 N22].
  assert (A3 : answers (hist ++ [CSave]) (mid ++ [CRestore] ++ mid2) = Ret (mrs ++ [RVoid] ++ mrs2)).
  { rewrite answers_app, A1. cbn [obind]. rewrite answers_app.
    assert (RV : answers ((hist ++ [CSave]) ++ mid) [CRestore] = Ret [RVoid]).
    { apply answers_ret in A1. destruct A1 as (m & rs & m' & R & R').
      assert (R2 : run fuel modeler0 ((hist ++ [CSave]) ++ mid) = Ret (m', rs ++ mrs)) by (rewrite run_app, R; cbn; rewrite R'; reflexivity).
      rewrite (answers_from _ _ _ _ _ R2). reflexivity. }
    rewrite RV. cbn [obind]. rewrite <- !app_assoc, A2. reflexivity. }
  assert (LM : List.length mrs = List.length mid).
  { apply answers_ret in A1. destruct A1 as (m & rs & m' & R & R'). eapply run_length; eauto. }
  eapply indist_trans; [|apply indist_sym; eapply (C14_restore_undoes_partial hist s mid mrs); eauto; tauto].
  replace (hist ++ [CSave] ++ mid ++ [CRestore] ++ mid2 ++ [CRestore])
    with (hist ++ [CSave] ++ (mid ++ [CRestore] ++ mid2) ++ [CRestore]) by (rewrite <- !app_assoc; reflexivity).
  eapply C14_restore_undoes_partial; eauto.
  - apply no_call_app; [exact N11|]. apply no_call_app; [reflexivity|exact N12].
  - apply no_call_app; [exact N21|]. apply no_call_app; [reflexivity|exact N22].
  - destruct W as [W|[W1 W2]]; [auto|]. right. apply nad_app; auto. cbn. auto.
Qed.

(** ** C18, C19, C20 *)
Lemma params_no_enables : forall hist m rs, no_call enables_prediction hist ->
  run fuel modeler0 hist = Ret (m, rs) -> forall p, m_params m = Some p -> prediction_on p = false.
Proof.
  intros hist m rs N R p P.
  destruct (prediction_on p) eqn:O; [|reflexivity]. exfalso.
  assert (G : good m) by (eapply good_run; [apply good0|exact R]).
  assert (B : bare m) by (eapply bare_run; [exact N|exact bare0|exact R]).
  destruct (g_on _ G p P O) as [K _]. destruct B as [B _]. rewrite B in K. apply (make_predictor_on _ O). auto.
Qed.

(** Continuations for which nothing of an older configuration can come back: no
    Restore in it, or prediction stays enabled, or was never enabled before. *)
Definition no_stale_predictor (hist : list call) (p : StrokeModelParams) (cs : list call) : Prop :=
  no_call is_restore cs \/
  (prediction_on p = true /\ no_call disables_prediction cs) \/
  no_call enables_prediction hist.

Theorem C18_reset_as_new_partial : forall hist p,
  answers hist [CReset p] = Ret [RStatus OkStatus] ->
  indistinguishable_by (no_stale_predictor hist p) (hist ++ [CReset p]) [CReset p].
Proof.
  intros hist p H cs W. apply answers1 in H. destruct H as (m & rs & m' & r0 & R & S & Q & R2).
  inversion Q; subst. cbn in S. unfold reset_params in S.
  destruct (validate_params p) eqn:V; inversion S; subst. 
  assert (RN : run fuel modeler0 [CReset p] = Ret (fresh p, [RStatus OkStatus])).
  { cbn. unfold fresh, reset_params. rewrite V. reflexivity. }
  destruct W as [W|[[W1 W2]|W]].
  - eapply (indist_simN fuel _ _ _ _ _ _ R2 RN); [|exact W].
    apply idle_simN; cbn; auto. apply make_predictor_reset.
  - eapply (indist_sim_false fuel _ _ _ _ _ _ R2 RN); [|exact W2].
    apply idle_sim_false; cbn; auto. apply make_predictor_reset.
  - eapply (indist_sim fuel _ _ _ _ _ _ R2 RN).
    assert (B : bare m) by (eapply bare_run; [exact W|exact bare0|exact R]). destruct B as [B1 B2].
    rewrite (fresh_eq p V). constructor; cbn; auto; try congruence.
    intros [K|[K _]]; congruence.
Qed.

Theorem C19_reset_keep_succeeds : forall hist s p,
  after hist s -> ps_params s = Some p ->
  answers hist [CResetKeep] = Ret [RStatus OkStatus] /\ answers hist [CReset p] = Ret [RStatus OkStatus].
Proof.
  intros hist s p H P. apply after_state in H. destruct H as (m & r0 & R & (T1 & T2 & T3) & G).
  rewrite !(answers_step1 _ _ _ _ R). cbn. unfold reset_keep, reset_params.
  rewrite <- T1, P, (g_valid _ G p) by congruence. split; reflexivity.
Qed.

(** Prediction as the parameters say: prediction is enabled, or was never
    restored, or was never enabled. *)
Definition predictor_in_force (hist : list call) (p : StrokeModelParams) : Prop :=
  prediction_on p = true \/ no_call is_restore hist \/ no_call enables_prediction hist.

Lemma in_force : forall hist m rs p,
  run fuel modeler0 hist = Ret (m, rs) -> good m -> m_params m = Some p -> predictor_in_force hist p ->
  reset_pred (m_predictor m) = make_predictor p.
Proof.
  intros hist m rs p R G P [W|[W|W]].
  - apply (g_on _ G p P W).
  - assert (PL : plain m) by (eapply plain_run; [exact W|exact plain0|exact R]).
    unfold plain in PL. rewrite P in PL. assumption.
  - assert (B : bare m) by (eapply bare_run; [exact W|exact bare0|exact R]). destruct B as [B _].
    rewrite B. symmetry. apply make_predictor_off. eapply params_no_enables; eauto.
Qed.

Theorem C19_reset_keep_equals_reset_partial : forall hist s p,
  after hist s -> ps_params s = Some p -> predictor_in_force hist p ->
  indistinguishable_by (no_stale_predictor hist p) (hist ++ [CResetKeep]) (hist ++ [CReset p]).
Proof.
  intros hist s p H P IF cs W. apply after_state in H. destruct H as (m & r0 & R & (T1 & T2 & T3) & G).
  assert (MP : m_params m = Some p) by congruence.
  pose proof (in_force _ _ _ _ R G MP IF) as PR.
  assert (V : validate_params p = OkStatus) by (apply (g_valid _ G); assumption).
  pose proof (run_snoc _ _ _ CResetKeep R) as R1. pose proof (run_snoc _ _ _ (CReset p) R) as R2.
  cbn in R1, R2. unfold reset_keep in R1. unfold reset_params in R2. rewrite MP in R1. rewrite V in R2. cbn in R1, R2.
  destruct W as [W|[[W1 W2]|W]].
  - eapply (indist_simN fuel _ _ _ _ _ _ R1 R2); [|exact W].
    constructor; cbn; auto; try congruence. rewrite PR. symmetry. apply make_predictor_reset.
  - eapply (indist_sim_false fuel _ _ _ _ _ _ R1 R2); [|exact W2].
    constructor; cbn; try congruence; try (intros [K|K]; congruence); try (intros [K|[K _]]; congruence); try reflexivity.
    rewrite PR. symmetry. apply make_predictor_reset.
  - eapply (indist_sim fuel _ _ _ _ _ _ R1 R2).
    assert (B : bare m) by (eapply bare_run; [exact W|exact bare0|exact R]). destruct B as [B1 B2].
    pose proof (params_no_enables _ _ _ W R p MP) as O.
    constructor; cbn; auto; try congruence.
    + rewrite B1. symmetry. apply make_predictor_off. assumption.
    + intros [K|[K _]]; congruence.
Qed.

(** Between strokes a modeler is as good as new, whatever strokes it has
    modeled: with no active Save, or for continuations without Restore. *)
Theorem C20_strokes_independent_partial : forall hist s p,
  after hist s -> ps_params s = Some p -> in_stroke s = false ->
  predictor_in_force hist p ->
  indistinguishable_by (fun cs => no_stale_predictor hist p cs /\ (ps_saved s = None \/ no_call is_restore cs))
    hist [CReset p].
Proof.
  intros hist s p H P NS IF cs [W SV]. apply after_state in H. destruct H as (m & r0 & R & (T1 & T2 & T3) & G).
  assert (MP : m_params m = Some p) by congruence.
  pose proof (in_force _ _ _ _ R G MP IF) as PR.
  assert (V : validate_params p = OkStatus) by (apply (g_valid _ G); assumption).
  assert (L : m_last m = None) by (unfold in_stroke in NS; rewrite T2 in NS; destruct (m_last m); [discriminate|reflexivity]).
  assert (RN : run fuel modeler0 [CReset p] = Ret (fresh p, [RStatus OkStatus])).
  { cbn. unfold fresh, reset_params. rewrite V. reflexivity. }
  assert (NR : no_call is_restore cs -> answers hist cs = answers [CReset p] cs).
  { intros N. eapply (indist_simN fuel _ _ _ _ _ _ R RN); [|exact N]. apply idle_simN; auto. }
  destruct SV as [SV|SV]; [|auto].
  assert (SA : m_save_active m = false) by (rewrite SV in T3; destruct (m_save_active m); [discriminate|reflexivity]).
  destruct W as [W|[[W1 W2]|W]]; [auto| |].
  - eapply (indist_sim_false fuel _ _ _ _ _ _ R RN); [|exact W2]. apply idle_sim_false; auto.
  - eapply (indist_sim fuel _ _ _ _ _ _ R RN).
    assert (B : bare m) by (eapply bare_run; [exact W|exact bare0|exact R]). destruct B as [B1 B2].
    apply idle_sim_true; auto. eapply params_no_enables; eauto.
Qed.

End API.
