(** * The stroke in progress, as a client sees it, and invariants of strokes, for
      every arithmetic. *)
From Verif Require Export Cons.
From Coq Require Import Lia.

Section Stroke.
Context {A : Arith}.
Variable fuel : nat.

(** ** Specification: the stroke in progress
    What a client who records calls and replies knows: the accepted inputs of the
    stroke in progress with the results each of them appended, oldest first (none:
    no stroke), those of the saved stroke if there is an active Save, and whether
    a new stroke was started since that Save.  [si_seen] lists the inputs of the
    stroke in progress that the modeler took into account at all: the accepted
    ones and the Moves rejected with one of the two messages of [traced];
    [si_saved_seen] those of the saved stroke. *)
Definition entry : Type := (Input * list Result)%type.
Record sinputs : Type := mkSI {
  si_cur : list entry;
  si_saved : option (list entry);
  si_stale : bool;
  si_seen : list Input;
  si_saved_seen : list Input
}.
(** The results appended to a vector that had contents [rs] before. *)
Definition appended (rs rs' : list Result) : list Result := skipn (List.length rs) rs'.
Lemma appended_app : forall rs out, appended rs (rs ++ out) = out.
Proof. intros rs out. unfold appended. rewrite skipn_app, skipn_all, Nat.sub_diag. reflexivity. Qed.
Definition sinputs0 : sinputs := mkSI [] None false [] [].
Definition sstep (s : sinputs) (c : call) (r : reply) : sinputs :=
  match c, r with
  | CReset _, RStatus OkStatus | CResetKeep, RStatus OkStatus => sinputs0
  | CUpdate i rs, RResults OkStatus rs' =>
      match i_event i with
      | EDown => mkSI [(i, appended rs rs')] (si_saved s) true [i] (si_saved_seen s)
      | EUp => mkSI [] (si_saved s) (si_stale s) [] (si_saved_seen s)
      | _ => mkSI (si_cur s ++ [(i, appended rs rs')]) (si_saved s) (si_stale s) (si_seen s ++ [i]) (si_saved_seen s)
      end
  | CUpdate i _, RResults e _ =>
      if traced i e then mkSI (si_cur s) (si_saved s) (si_stale s) (si_seen s ++ [i]) (si_saved_seen s) else s
  | CSave, _ => mkSI (si_cur s) (Some (si_cur s)) false (si_seen s) (si_seen s)
  | CRestore, _ =>
      match si_saved s with
      | Some l => mkSI l (si_saved s) (si_stale s) (si_saved_seen s) (si_saved_seen s)
      | None => s
      end
  | _, _ => s
  end.
Fixpoint srun (s : sinputs) (cs : list call) (rs : list reply) : sinputs :=
  match cs, rs with
  | c :: cs', r :: rs' => srun (sstep s c r) cs' rs'
  | _, _ => s
  end.
(** After [hist] the client knows [s], and the accepted inputs of the stroke in
    progress are [is]. *)
Definition after_inputs (hist : list call) (s : pstate) (is : list Input) : Prop :=
  exists m rs, run fuel modeler0 hist = Ret (m, rs) /\ prun pstate0 hist rs = s /\
    map fst (si_cur (srun sinputs0 hist rs)) = is.

(** No Restore goes back to a stroke after a new stroke was started: the one
    situation in which Restore does not bring back the saved stroke (see C14). *)
Definition clean_call (s : sinputs) (c : call) : Prop :=
  c = CRestore -> si_stale s = true -> si_saved s = None \/ si_saved s = Some [].
Fixpoint clean (s : sinputs) (cs : list call) (rs : list reply) : Prop :=
  match cs, rs with
  | c :: cs', r :: rs' => clean_call s c /\ clean (sstep s c r) cs' rs'
  | _, _ => True
  end.
Definition after_clean (hist : list call) (s : pstate) (is : list Input) : Prop :=
  exists m rs, run fuel modeler0 hist = Ret (m, rs) /\ prun pstate0 hist rs = s /\
    map fst (si_cur (srun sinputs0 hist rs)) = is /\ clean sinputs0 hist rs.
(** The same with the results of each input. *)
Definition after_stroke (hist : list call) (s : pstate) (es : list entry) : Prop :=
  exists m rs, run fuel modeler0 hist = Ret (m, rs) /\ prun pstate0 hist rs = s /\
    si_cur (srun sinputs0 hist rs) = es /\ clean sinputs0 hist rs.
(** The same with the inputs taken into account. *)
Definition after_seen (hist : list call) (s : pstate) (es : list entry) (seen : list Input) : Prop :=
  exists m rs, run fuel modeler0 hist = Ret (m, rs) /\ prun pstate0 hist rs = s /\
    si_cur (srun sinputs0 hist rs) = es /\ si_seen (srun sinputs0 hist rs) = seen /\ clean sinputs0 hist rs.
Lemma after_seen_stroke : forall hist s es, after_stroke hist s es <-> exists seen, after_seen hist s es seen.
Proof.
  intros hist s es. split.
  - intros (m & rs & R & P & S & C). eexists. exists m, rs. auto.
  - intros (seen & m & rs & R & P & S & _ & C). exists m, rs. auto.
Qed.
Lemma after_clean_stroke : forall hist s is, after_clean hist s is <->
  exists es, after_stroke hist s es /\ map fst es = is.
Proof.
  intros hist s is. split.
  - intros (m & rs & R & P & S & C). eexists. split; [exists m, rs; auto|exact S].
  - intros (es & (m & rs & R & P & S & C) & M). exists m, rs. subst es. auto.
Qed.

(** A history without Restore is clean. *)
Lemma clean_no_restore : forall cs s rs, no_call is_restore cs -> clean s cs rs.
Proof.
  induction cs as [|c cs IH]; intros s rs N; [exact I|]. destruct rs as [|r rs]; [exact I|].
  unfold no_call in N. cbn in N. apply andb_prop in N. destruct N as [N1 N2]. cbn. split; [|apply IH; exact N2].
  intros ->. discriminate N1.
Qed.

Lemma after_clean_inputs : forall hist s is, after_clean hist s is -> after_inputs hist s is.
Proof. intros hist s is (m & rs & R & P & S & _). exists m, rs. auto. Qed.
Lemma after_inputs_after : forall hist s is, after_inputs hist s is -> after fuel hist s.
Proof. intros hist s is (m & rs & R & P & S). exists m, rs. auto. Qed.

(** ** The inputs and the automaton *)
Definition stroke_sync (s : sinputs) (m : Modeler) : Prop :=
  (m_last m = None <-> si_cur s = []) /\
  (m_save_active m = match si_saved s with Some _ => true | None => false end) /\
  (forall l, si_saved s = Some l -> (m_saved_last m = None <-> l = [])).

Lemma sync0 : stroke_sync sinputs0 modeler0.
Proof. repeat split; cbn; auto; discriminate. Qed.

Lemma app_one_ne : forall {X} (l : list X) x, l ++ [x] <> [].
Proof. intros X [|a l] x; discriminate. Qed.

Lemma sync_step : forall s m c m' r, stroke_sync s m -> step fuel m c = Ret (m', r) -> stroke_sync (sstep s c r) m'.
Proof.
  intros s m c m' r (K1 & K2 & K3) H. destruct c; cbn in H.
  - unfold reset_params in H. destruct (validate_params p); inversion H; subst; try (split; auto; fail).
    repeat split; cbn; auto; discriminate.
  - unfold reset_keep in H. destruct (m_params m) eqn:P; inversion H; subst; [|split; auto].
    repeat split; cbn; auto; discriminate.
  - destruct (update fuel m i results) as [[[m1 s1] rs1]| |] eqn:U; cbn in H; try discriminate H.
    inversion H; subst. apply update_inv in U. destruct U as (out & -> & U).
    destruct U as [st N|p sm pred MP VI EV ML SU UP|p last w cc sm e MP VI EV ML IE DL WU SU NS NE
      |p last w cc sm n tip tips pred lm out MP VI EV ML IE DL WU SU NS UA UP MS
      |p last n tip1 tips1 tip2 tips2 sm lm out MP VI EV ML IE DL NS UA ME SU MS].
    + cbn. destruct st; [congruence| |]; destruct (traced i _); (split; [exact K1|split; assumption]).
    + cbn. rewrite EV. split; [|split; assumption]. cbn. split; discriminate.
    + cbn. destruct e; [congruence| |]; destruct (traced i _); (split; [exact K1|split; assumption]).
    + cbn. rewrite EV. split; [|split; assumption]. cbn. split; [discriminate|].
      intros Q. exfalso. apply (app_one_ne _ _ Q).
    + cbn. rewrite EV. split; [|split; assumption]. cbn. tauto.
  - destruct (predict fuel m results) as [[[m1 s1] rs1]| |] eqn:U; cbn in H; try discriminate H.
    inversion H; subst. apply predict_inv in U. destruct U; (split; [exact K1|split; assumption]).
  - inversion H; subst. cbn. split; [exact K1|]. split; [reflexivity|]. cbn. intros l E. inversion E; subst l. exact K1.
  - inversion H; subst. cbn. unfold restore. destruct (m_save_active m) eqn:SA.
    + destruct (si_saved s) as [l|] eqn:SS; [|discriminate K2]. cbn. split; [|split; [reflexivity|]].
      * apply (K3 l eq_refl).
      * intros l2 E. cbn in E. inversion E; subst l2. apply (K3 l eq_refl).
    + destruct (si_saved s) as [l|] eqn:SS; [discriminate K2|]. split; [exact K1|]. rewrite SS. split; [exact SA|].
      intros l E; discriminate E.
Qed.

(** ** Invariants of the stroke in progress *)
(** The live state of the stroke. *)
Record core : Type := mkCore {
  co_w : WState;
  co_tip : TipState;
  co_s : SState;
  co_l : list SpeedSample;
  co_pred : option Predictor;
  co_last : LastInput
}.
Definition core_of (p : StrokeModelParams) (m : Modeler) (last : LastInput) : core :=
  mkCore (w_state (m_wobble m)) (pm_state (m_pos m)) (sm_state (m_stylus m)) (l_samples (m_loop m))
    (if prediction_on p then m_predictor m else None) last.

Section StrokeInv.
Variable In : Input -> Prop.
Variable J : StrokeModelParams -> list entry -> list Input -> core -> Prop.
Hypothesis J_down : forall p m i m' out,
  In i -> m_params m = Some p -> validate_params p = OkStatus -> good m ->
  upd fuel m i m' OkStatus out -> i_event i = EDown ->
  J p [(i, out)] [i] (core_of p m' (mkLast i (i_pos i))).
Hypothesis J_move : forall p m i m' out is seen last last',
  In i -> m_params m = Some p -> validate_params p = OkStatus -> good m -> comp_params p m ->
  m_last m = Some last -> J p is seen (core_of p m last) ->
  upd fuel m i m' OkStatus out -> i_event i = EMove -> m_last m' = Some last' ->
  J p (is ++ [(i, out)]) (seen ++ [i]) (core_of p m' last').
Hypothesis J_reject : forall p m i m' out is seen last e,
  In i -> m_params m = Some p -> validate_params p = OkStatus -> good m -> comp_params p m ->
  m_last m = Some last -> J p is seen (core_of p m last) ->
  upd fuel m i m' e out -> e <> OkStatus ->
  J p is (if traced i e then seen ++ [i] else seen) (core_of p m' last).

Definition jinv (s : sinputs) (m : Modeler) : Prop :=
  forall p, m_params m = Some p ->
  (forall last, m_last m = Some last -> J p (si_cur s) (si_seen s) (core_of p m last)) /\
  (forall l, si_saved s = Some l -> l <> [] -> si_stale s = false ->
     exists m0 last0, kept m0 m /\ good m0 /\ m_params m0 = Some p /\ m_last m0 = Some last0 /\
       J p l (si_saved_seen s) (core_of p m0 last0)).

Lemma jinv0 : jinv sinputs0 modeler0.
Proof. intros p H. discriminate H. Qed.

Definition call_in (c : call) : Prop := match c with CUpdate i _ => In i | _ => True end.

Lemma core_restore : forall p m0 m last, kept m0 m -> good m0 -> m_params m0 = Some p ->
  core_of p (restore m) last = core_of p m0 last.
Proof.
  intros p m0 m last K G MP. unfold core_of, restore.
  destruct K as [KP KA KSP KSL (W1 & W2 & W3) (P1 & P2) (S1 & S2 & S3) (L1 & L2 & L3) KPN]. rewrite KA.
  unfold wobble_restore, pos_restore, stylus_restore, loop_restore. cbn. rewrite W2, P1, S2, L2. cbn.
  rewrite W1, S1, L1. f_equal. destruct (prediction_on p) eqn:O; [|reflexivity].
  rewrite KSP. cbn. destruct (m_predictor m0) eqn:Q; [reflexivity|].
  destruct (g_on _ G p MP O) as [GP _]. rewrite Q in GP. exfalso. apply (make_predictor_on _ O). auto.
Qed.

Lemma jinv_step : forall s m c m' r,
  good m -> cons m -> stroke_sync s m -> jinv s m -> call_in c -> clean_call s c ->
  step fuel m c = Ret (m', r) -> jinv (sstep s c r) m'.
Proof.
  intros s m c m' r G C SY JI CI CC H.
  assert (KEEP : forall m0, is_reset c = false -> is_save c = false -> accepted_down c r = false ->
     kept m0 m -> kept m0 m').
  { intros m0 N1 N2 N3 K. eapply kept_step; eassumption. }
  destruct c; cbn [step] in H.
  - clear KEEP. unfold reset_params in H. destruct (validate_params p); inversion H; subst; try assumption.
    intros q Q. cbn. split; [intros last E; discriminate E|intros l E; discriminate E].
  - clear KEEP. unfold reset_keep in H. destruct (m_params m) eqn:P; inversion H; subst; [|assumption].
    intros q Q. cbn. split; [intros last E; discriminate E|intros l E; discriminate E].
  - destruct (update fuel m i results) as [[[m1 s1] rs1]| |] eqn:U; cbn [obind] in H; try discriminate H.
    inversion H; subst m1 r. clear H. apply update_inv in U. destruct U as (out & -> & U). cbn in CI.
    pose proof (appended_app results out) as AP.
    pose proof U as U0.
    assert (MPP : m_params m' = m_params m) by (destruct U; reflexivity).
    intros q Q. rewrite MPP in Q. destruct (JI q Q) as [JL JS]. pose proof (g_valid _ G q Q) as V.
    assert (CP : forall last, m_last m = Some last -> comp_params q m) by (intros last L; apply C; [exact Q|left; congruence]).
    destruct (status_ok s1) eqn:SO.
    + destruct s1; try discriminate SO. cbn [sstep]. rewrite AP.
      destruct (i_event i) eqn:EV.
      * split.
        -- intros last L. destruct (upd_down fuel m i m' out U EV) as (p & sm & pred & _ & _ & _ & _ & _ & _ & EM).
           rewrite EM in L. cbn in L. inversion L; subst last. cbn. eapply J_down; eassumption.
        -- cbn. discriminate.
      * destruct (upd_move fuel m i m' out U EV) as (p & last0 & w & cc & sm & n & tip & tips & pred & lm & _ & _ & ML & _).
        split.
        -- intros last L. cbn. eapply J_move; eauto.
        -- cbn. intros l E NE ST. destruct (JS l E NE ST) as (m0 & l0 & K1 & K2). exists m0, l0. split; [|exact K2].
           apply KEEP; auto. cbn. rewrite EV. reflexivity.
      * split.
        -- intros last L. destruct (upd_up fuel m i m' out U EV) as (p & last0 & n & tip1 & tips1 & tip2 & tips2 & sm & lm & _ & _ & _ & _ & _ & _ & _ & _ & _ & EM).
           rewrite EM in L. discriminate L.
        -- cbn. intros l E NE ST. destruct (JS l E NE ST) as (m0 & l0 & K1 & K2). exists m0, l0. split; [|exact K2].
           apply KEEP; auto. cbn. rewrite EV. reflexivity.
      * exfalso. destruct U0 as [st N|p sm pred MP VI EV2 ML SU UP|p last w cc sm e MP VI EV2 ML IE DL WU SU NS NE
          |p last w cc sm n tip tips pred lm out MP VI EV2 ML IE DL WU SU NS UA UP MS
          |p last n tip1 tips1 tip2 tips2 sm lm out MP VI EV2 ML IE DL NS UA ME SU MS]; try congruence.
        destruct st; try discriminate SO. congruence.
    + assert (NE1 : s1 <> OkStatus) by (intros ->; discriminate SO).
      assert (SS : sstep s (CUpdate i results) (RResults s1 (results ++ out)) =
        mkSI (si_cur s) (si_saved s) (si_stale s) (if traced i s1 then si_seen s ++ [i] else si_seen s) (si_saved_seen s)).
      { cbn. destruct s1; [congruence| |]; destruct (traced i _); destruct s; reflexivity. }
      rewrite SS. split; cbn [si_cur si_saved si_stale si_seen si_saved_seen].
      * intros last L.
        assert (ML : m_last m = Some last).
        { destruct U0 as [st N|p sm pred MP VI EV2 ML SU UP|p last0 w cc sm e MP VI EV2 ML IE DL WU SU NS NE
          |p last0 w cc sm n tip tips pred lm out MP VI EV2 ML IE DL WU SU NS UA UP MS
          |p last0 n tip1 tips1 tip2 tips2 sm lm out MP VI EV2 ML IE DL NS UA ME SU MS]; cbn in L; try congruence. }
        eapply J_reject; eauto.
      * intros l E NE ST. destruct (JS l E NE ST) as (m0 & l0 & K1 & K2). exists m0, l0. split; [|exact K2].
        apply KEEP; auto. cbn. destruct s1; try reflexivity. congruence.
  - destruct (predict fuel m results) as [[[m1 s1] rs1]| |] eqn:U; cbn [obind] in H; try discriminate H.
    inversion H; subst m1 r. clear H. cbn [sstep]. apply predict_inv in U.
    assert (E : m_params m' = m_params m /\ m_last m' = m_last m /\ forall p last, core_of p m' last = core_of p m last)
      by (destruct U; auto).
    destruct E as (E1 & E2 & E3). intros q Q. rewrite E1 in Q. destruct (JI q Q) as [JL JS]. split.
    + intros last L. rewrite E2 in L. rewrite E3. auto.
    + intros l E NE ST. destruct (JS l E NE ST) as (m0 & l0 & K1 & K2). exists m0, l0. split; [|exact K2]. apply KEEP; auto.
  - clear KEEP. inversion H; subst. cbn. intros q Q. cbn in Q. destruct (JI q Q) as [JL JS]. split.
    + intros last L. cbn in L. change (core_of q (save m) last) with (core_of q m last). cbn. auto.
    + cbn. intros l E NE _. inversion E; subst l. destruct SY as (SY1 & _).
      destruct (m_last m) as [last|] eqn:L; [|exfalso; apply NE; apply SY1; reflexivity].
      exists m, last. split; [|auto]. constructor; cbn; repeat split; auto.
      intros K. destruct (m_predictor m); [discriminate K|reflexivity].
  - inversion H; subst. cbn. destruct SY as (SY1 & SY2 & SY3).
    destruct (si_saved s) as [l|] eqn:SS.
    + intros q Q.
      assert (MPP : m_params (restore m) = m_params m) by (unfold restore; destruct (m_save_active m); reflexivity).
      rewrite MPP in Q. destruct (JI q Q) as [JL JS].
      assert (RL : m_last (restore m) = m_saved_last m) by (unfold restore; rewrite SY2; reflexivity).
      split.
      * intros last L. cbn. rewrite RL in L.
        assert (NE : l <> []). { intros ->. destruct (SY3 [] eq_refl) as [_ K]. rewrite K in L; [discriminate L|reflexivity]. }
        assert (ST : si_stale s = false).
        { destruct (si_stale s) eqn:ST; [|reflexivity]. destruct (CC eq_refl ST) as [K|K]; [congruence|].
          rewrite SS in K. inversion K. congruence. }
        destruct (JS l SS NE ST) as (m0 & l0 & K1 & K2 & K3 & K4 & K5).
        assert (last = l0). { destruct K1 as [_ _ _ KSL _ _ _ _ _]. congruence. } subst l0.
        rewrite (core_restore q m0 m last K1 K2 K3). exact K5.
      * cbn. intros l2 E NE ST. inversion E; subst l2. destruct (JS l SS NE ST) as (m0 & l0 & K1 & K2). exists m0, l0.
        split; [|exact K2]. apply KEEP; auto.
    + assert (ER : restore m = m) by (unfold restore; rewrite SY2; reflexivity). rewrite ER. exact JI.
Qed.

Lemma jinv_run : forall cs s m m' rs,
  good m -> cons m -> stroke_sync s m -> jinv s m -> Forall call_in cs -> clean s cs rs ->
  run fuel m cs = Ret (m', rs) -> jinv (srun s cs rs) m' /\ stroke_sync (srun s cs rs) m'.
Proof.
  induction cs as [|c cs IH]; intros s m m' rs G C SY JI F CL R; cbn in R.
  - inversion R; subst. split; assumption.
  - bind_inv R. destruct x as [m1 r]. bind_inv R. destruct x as [m2 rs2]. inversion R; subst. inversion F; subst.
    cbn in CL. destruct CL as [CL1 CL2]. cbn.
    eapply IH; [eapply good_step; eauto|eapply cons_step; eauto|eapply sync_step; eauto
      |eapply jinv_step; eauto|assumption|exact CL2|exact E0].
Qed.

Lemma after_seen_state : forall hist s es seen, after_seen hist s es seen -> Forall call_in hist ->
  exists m rs, run fuel modeler0 hist = Ret (m, rs) /\ tracks s m /\ good m /\ cons m /\
    (forall p last, m_params m = Some p -> m_last m = Some last -> J p es seen (core_of p m last)).
Proof.
  intros hist s is seen (m & rs & R & P & I & I2 & CL) F. exists m, rs. split; [exact R|].
  split; [subst s; exact (tracks_run _ _ _ _ _ _ tracks0 R)|].
  split; [exact (good_run _ _ _ _ _ good0 R)|].
  split; [exact (cons_run _ _ _ _ _ cons0 R)|].
  destruct (jinv_run _ _ _ _ _ good0 cons0 sync0 jinv0 F CL R) as [JI _].
  intros p last MP ML. subst is seen. apply (JI p MP). exact ML.
Qed.

End StrokeInv.

(** The version that does not mention the inputs seen. *)
Lemma after_stroke_state : forall (In : Input -> Prop) (J : StrokeModelParams -> list entry -> core -> Prop),
  (forall p m i m' out,
    In i -> m_params m = Some p -> validate_params p = OkStatus -> good m ->
    upd fuel m i m' OkStatus out -> i_event i = EDown ->
    J p [(i, out)] (core_of p m' (mkLast i (i_pos i)))) ->
  (forall p m i m' out is last last',
    In i -> m_params m = Some p -> validate_params p = OkStatus -> good m -> comp_params p m ->
    m_last m = Some last -> J p is (core_of p m last) ->
    upd fuel m i m' OkStatus out -> i_event i = EMove -> m_last m' = Some last' ->
    J p (is ++ [(i, out)]) (core_of p m' last')) ->
  (forall p m i m' out is last e,
    In i -> m_params m = Some p -> validate_params p = OkStatus -> good m -> comp_params p m ->
    m_last m = Some last -> J p is (core_of p m last) ->
    upd fuel m i m' e out -> e <> OkStatus ->
    J p is (core_of p m' last)) ->
  forall hist s es, after_stroke hist s es -> Forall (call_in In) hist ->
  exists m rs, run fuel modeler0 hist = Ret (m, rs) /\ tracks s m /\ good m /\ cons m /\
    (forall p last, m_params m = Some p -> m_last m = Some last -> J p es (core_of p m last)).
Proof.
  intros In J JD JM JR hist s es AS CI. apply after_seen_stroke in AS. destruct AS as (seen & AS).
  refine (after_seen_state In (fun p es _ c => J p es c) _ _ _ hist s es seen AS CI).
  - intros p m i m' out H1 H2 H3 H4 H5 H6. exact (JD p m i m' out H1 H2 H3 H4 H5 H6).
  - intros p m i m' out es0 seen0 last last' H1 H2 H3 H4 H5 H6 H7 H8 H9 H10.
    exact (JM p m i m' out _ last last' H1 H2 H3 H4 H5 H6 H7 H8 H9 H10).
  - intros p m i m' out es0 seen0 last e H1 H2 H3 H4 H5 H6 H7 H8 H9. exact (JR p m i m' out _ last e H1 H2 H3 H4 H5 H6 H7 H8 H9).
Qed.

(** The version that only mentions the inputs. *)
Lemma after_clean_state : forall (In : Input -> Prop) (J : StrokeModelParams -> list Input -> core -> Prop),
  (forall p m i m' out,
    In i -> m_params m = Some p -> validate_params p = OkStatus -> good m ->
    upd fuel m i m' OkStatus out -> i_event i = EDown ->
    J p [i] (core_of p m' (mkLast i (i_pos i)))) ->
  (forall p m i m' out is last last',
    In i -> m_params m = Some p -> validate_params p = OkStatus -> good m -> comp_params p m ->
    m_last m = Some last -> J p is (core_of p m last) ->
    upd fuel m i m' OkStatus out -> i_event i = EMove -> m_last m' = Some last' ->
    J p (is ++ [i]) (core_of p m' last')) ->
  (forall p m i m' out is last e,
    In i -> m_params m = Some p -> validate_params p = OkStatus -> good m -> comp_params p m ->
    m_last m = Some last -> J p is (core_of p m last) ->
    upd fuel m i m' e out -> e <> OkStatus ->
    J p is (core_of p m' last)) ->
  forall hist s is, after_clean hist s is -> Forall (call_in In) hist ->
  exists m rs, run fuel modeler0 hist = Ret (m, rs) /\ tracks s m /\ good m /\ cons m /\
    (forall p last, m_params m = Some p -> m_last m = Some last -> J p is (core_of p m last)).
Proof.
  intros In J JD JM JR hist s is AC CI. apply after_clean_stroke in AC. destruct AC as (es & AS & <-).
  refine (after_stroke_state In (fun p es c => J p (map fst es) c) _ _ _ hist s es AS CI).
  - intros p m i m' out H1 H2 H3 H4 H5 H6. exact (JD p m i m' out H1 H2 H3 H4 H5 H6).
  - intros p m i m' out es0 last last' H1 H2 H3 H4 H5 H6 H7 H8 H9 H10. rewrite map_app.
    exact (JM p m i m' out _ last last' H1 H2 H3 H4 H5 H6 H7 H8 H9 H10).
  - intros p m i m' out es0 last e H1 H2 H3 H4 H5 H6 H7 H8 H9. exact (JR p m i m' out _ last e H1 H2 H3 H4 H5 H6 H7 H8 H9).
Qed.

Lemma call_in_true : forall hist, Forall (call_in (fun _ => True)) hist.
Proof. intros hist. apply Forall_forall. intros c _. destruct c; exact I. Qed.

(** The inputs are those of a stroke in progress exactly if there is one. *)
Lemma after_inputs_nonempty : forall hist s is, after_inputs hist s is ->
  (in_stroke s = true <-> is <> []).
Proof.
  intros hist s is (m & rs & R & P & I0).
  assert (SY : stroke_sync (srun sinputs0 hist rs) m).
  { clear P I0. revert R. generalize sync0. generalize sinputs0. generalize (@modeler0 A). revert rs.
    induction hist as [|c cs IH]; intros rs m1 s0 SY R; cbn in R.
    - inversion R; subst; exact SY.
    - bind_inv R. destruct x as [m2 r]. bind_inv R. destruct x as [m3 rs2]. inversion R; subst. cbn.
      eapply IH; [eapply sync_step; eauto|exact E0]. }
  destruct SY as (SY & _). pose proof (tracks_run _ _ _ _ _ _ tracks0 R) as (_ & T & _). rewrite P in T.
  unfold in_stroke. rewrite T, <- I0.
  assert (NN : map fst (si_cur (srun sinputs0 hist rs)) = [] <-> si_cur (srun sinputs0 hist rs) = [])
    by (destruct (si_cur (srun sinputs0 hist rs)); cbn; split; congruence). destruct (m_last m); cbn; split; intros K; try discriminate; try congruence.
  - intros E. apply NN, SY in E. discriminate E.
  - exfalso. apply K. apply NN, SY. reflexivity.
Qed.

End Stroke.
