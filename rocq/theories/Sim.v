(** * Bisimulation: which parts of the state can ever be observed. *)
From Verif Require Export Inv.
From Coq Require Import Lia.

Section Sim.
Context {A : Arith}.

Lemma pred_reset_idem : forall p, pred_reset (pred_reset p) = pred_reset p.
Proof. intros []; reflexivity. Qed.

Definition reset_pred (o : option Predictor) : option Predictor := option_map pred_reset o.

Lemma reset_pred_none : forall a b, reset_pred a = reset_pred b -> (a = None <-> b = None).
Proof. intros [a|] [b|] H; cbn in H; split; intros; congruence. Qed.

(** What a Down event can see of a modeler without a stroke in progress. *)
Definition inject0 (m : Modeler) : Modeler :=
  mkModeler (reset_pred (m_predictor m)) (m_params m) wobble0 pos0 stylus0 loop0 [] None None None false.

Lemma update_no_stroke : forall fuel m i,
  m_last m = None ->
  update fuel (inject m) i [] =
  let* '(m', s, out) := update fuel (inject0 m) i [] in
  Ret (if status_ok s then m' else inject m, s, out).
Proof.
  intros fuel m i L. unfold update.
  change (m_params (inject m)) with (m_params m). change (m_last (inject m)) with (m_last m).
  change (m_params (inject0 m)) with (m_params m). change (m_last (inject0 m)) with (@None LastInput).
  rewrite L. destruct (m_params m) as [p|] eqn:P; [|reflexivity].
  destruct (validate_input i) eqn:V; try reflexivity.
  destruct (i_event i) eqn:EV.
  - unfold process_down. change (m_last (inject m)) with (m_last m). rewrite L.
    change (m_last (inject0 m)) with (@None LastInput). cbv iota.
    change (stylus_reset (m_stylus (inject m)) (p_stylus p))
      with (stylus_reset (m_stylus (inject0 m)) (p_stylus p)).
    destruct (stylus_update _ _ _ _ _ _) as [s'| |]; cbn [obind]; try reflexivity.
    change (m_predictor (inject m)) with (m_predictor m).
    change (m_predictor (inject0 m)) with (reset_pred (m_predictor m)).
    destruct (m_predictor m) as [pr|]; [|cbn; rewrite P; reflexivity]. cbn [reset_pred option_map].
    rewrite pred_reset_idem.
    destruct (pred_update _ _ _); cbn; rewrite ?P; reflexivity.
  - unfold process_move. cbn [m_last inject inject0]. rewrite L. reflexivity.
  - unfold process_up. cbn [m_last inject inject0]. rewrite L. reflexivity.
  - reflexivity.
Qed.

(** The saved copies that Restore would really use. *)
Definition eff_w (w : Wobble) := if w_save_active w then Some (w_saved w) else None.
Definition eff_s (s : Stylus) := if sm_save_active s then Some (sm_saved s) else None.
Definition eff_l (l : LoopModeler) := if l_save_active l then Some (l_saved l) else None.
Definition esaves (m : Modeler) :=
  (eff_w (m_wobble m), pm_saved (m_pos m), eff_s (m_stylus m), eff_l (m_loop m)).

(** [E = true]: predictors are compared exactly, and all continuations are
    allowed.  [E = false]: when there is no stroke, predictors are compared up to
    their dynamic state, and a stale saved predictor is ignored; then continuations
    may not Reset to disabled prediction. *)
Definition pred_rel (E : bool) (a b : option Predictor) : Prop :=
  if E then a = b else reset_pred a = reset_pred b.

Record sim (E : bool) (m1 m2 : Modeler) : Prop := mkSim {
  s_params : m_params m1 = m_params m2;
  s_last : m_last m1 = m_last m2;
  s_active : m_save_active m1 = m_save_active m2;
  s_pred : pred_rel E (m_predictor m1) (m_predictor m2);
  s_core : (m_last m1 <> None \/ (m_save_active m1 = true /\ m_saved_last m1 <> None)) ->
           inject m1 = inject m2;
  s_slast : m_save_active m1 = true -> m_saved_last m1 = m_saved_last m2;
  s_spred : (E = true \/ m_save_active m1 = true) ->
            pred_rel E (m_saved_predictor m1) (m_saved_predictor m2);
  s_spred_none : m_predictor m1 = None -> m_saved_predictor m1 = m_saved_predictor m2;
  s_saves : m_save_active m1 = true -> m_saved_last m1 <> None ->
            m_saved_predictor m1 = m_saved_predictor m2 /\ esaves m1 = esaves m2
}.

Lemma pred_rel_eq : forall E a b, a = b -> pred_rel E a b.
Proof. intros [] a b H; subst; reflexivity. Qed.
Lemma pred_rel_none : forall E a b, pred_rel E a b -> (a = None <-> b = None).
Proof. intros [] a b H; cbn in H. subst; tauto. apply reset_pred_none; assumption. Qed.
Lemma pred_rel_reset : forall E a b, pred_rel E a b -> reset_pred a = reset_pred b.
Proof. intros [] a b H; cbn in H; congruence. Qed.

Lemma sim_refl : forall E m, sim E m m.
Proof. intros. constructor; auto using pred_rel_eq. Qed.

(** Equal up to the scratch buffer. *)
Definition set_buffer (m : Modeler) (b : list TipState) : Modeler :=
  mkModeler (m_predictor m) (m_params m) (m_wobble m) (m_pos m) (m_stylus m) (m_loop m) b
    (m_last m) (m_saved_predictor m) (m_saved_last m) (m_save_active m).

Lemma sim_buffer : forall E m b, sim E m (set_buffer m b).
Proof. intros. constructor; auto using pred_rel_eq. Qed.

Lemma inject_graft : forall d b m m', inject (graft d b m m') = inject m'.
Proof. intros [] b m m'; reflexivity. Qed.

Lemma update_pred_none : forall fuel m i rs m' s rs',
  update fuel m i rs = Ret (m', s, rs') -> m_predictor m' = None -> m_predictor m = None.
Proof.
  intros fuel m i rs m' s rs' U N. apply update_inv in U. destruct U as (out & _ & U).
  destruct U; cbn in N; try assumption.
  - subst. destruct (m_predictor m); cbn in *; [|reflexivity]. bind_inv H4.
  - subst. destruct (m_predictor m); cbn in *; [|reflexivity]. bind_inv H9.
Qed.

Lemma update_last_some_not_down : forall fuel m i rs m' s rs',
  update fuel m i rs = Ret (m', s, rs') -> m_last m <> None -> down_of i s = false.
Proof.
  intros fuel m i rs m' s rs' U N. apply update_inv in U. destruct U as (out & _ & U).
  unfold down_of, ev_is_down.
  destruct U; try congruence; try (rewrite H1; reflexivity).
  - destruct s; try reflexivity. congruence.
  - destruct e; try reflexivity. congruence.
Qed.

Lemma update_params_same : forall fuel m i rs m' s rs',
  update fuel m i rs = Ret (m', s, rs') -> m_params m' = m_params m.
Proof.
  intros fuel m i rs m' s rs' U. apply update_inv in U. destruct U as (out & _ & U).
  destruct U; reflexivity.
Qed.

Definition same_outcome (R : Modeler -> Modeler -> Prop) (o1 o2 : outcome (Modeler * reply)) : Prop :=
  match o1, o2 with
  | Ret (m1, r1), Ret (m2, r2) => r1 = r2 /\ R m1 m2
  | UB k1, UB k2 => k1 = k2
  | Diverge, Diverge => True
  | _, _ => False
  end.

Lemma sim_step : forall E fuel m1 m2 c,
  sim E m1 m2 -> (E = false -> disables_prediction c = false) ->
  same_outcome (sim E) (step fuel m1 c) (step fuel m2 c).
Proof.
  intros E fuel m1 m2 c S HD.
  destruct c.
  - (* Reset(params) *)
    cbn. unfold reset_params. destruct (validate_params p) eqn:V; cbn; try (split; [reflexivity|assumption]).
    split; [reflexivity|].
    destruct S. constructor; cbn; auto using pred_rel_eq; try (intros; discriminate).
    + intros [H|[H _]]; congruence.
    + intros [H|H]; [|discriminate]. apply s_spred0; auto.
    + intros H. destruct E.
      * apply s_spred0. auto.
      * specialize (HD eq_refl). cbn in HD. unfold make_predictor in H.
        unfold prediction_on in HD. destruct (p_prediction p); discriminate.
  - (* Reset() *)
    cbn. unfold reset_keep. rewrite (s_params _ _ _ S).
    destruct (m_params m2) eqn:P; cbn; (split; [reflexivity|]); [|assumption].
    destruct S. constructor; cbn; auto; try (intros; discriminate).
    + intros [H|[H _]]; congruence.
    + intros [H|H]; [|discriminate]. apply s_spred0; auto.
  - (* Update *)
    cbn [step]. rewrite (update_inject fuel m1), (update_inject fuel m2).
    destruct (m_last m1) as [l1|] eqn:L1.
    + (* stroke in progress: the live states are equal *)
      assert (C : inject m1 = inject m2) by (apply (s_core _ _ _ S); left; congruence).
      rewrite C. destruct (update fuel (inject m2) i []) as [[[m' s] out]| |] eqn:U; cbn; auto.
      split; [reflexivity|].
      assert (ND : down_of i s = false).
      { eapply update_last_some_not_down; eauto. cbn. rewrite <- (s_last _ _ _ S), L1. discriminate. }
      assert (PN : m_predictor m' = None -> m_predictor m1 = None).
      { intros N. pose proof (update_pred_none _ _ _ _ _ _ _ U N) as K. cbn in K.
        apply (pred_rel_none _ _ _ (s_pred _ _ _ S)). assumption. }
      rewrite ND. destruct S. constructor; cbn; auto using pred_rel_eq.
    + (* no stroke *)
      assert (L2 : m_last m2 = None) by (rewrite <- (s_last _ _ _ S); assumption).
      rewrite (update_no_stroke _ _ _ L1), (update_no_stroke _ _ _ L2).
      assert (C : inject0 m1 = inject0 m2).
      { unfold inject0. rewrite (s_params _ _ _ S), (pred_rel_reset _ _ _ (s_pred _ _ _ S)). reflexivity. }
      rewrite C. destruct (update fuel (inject0 m2) i []) as [[[m' s] out]| |] eqn:U; cbn; auto.
      split; [reflexivity|].
      destruct (status_ok s) eqn:OK.
      * (* the Down is accepted *)
        assert (DN : down_of i s = true /\ (m_predictor m' = None -> m_predictor m1 = None)).
        { pose proof (update_pred_none _ _ _ _ _ _ _ U) as K.
          apply update_inv in U. destruct U as (o & _ & U). unfold down_of, ev_is_down. split.
          - destruct U; cbn in *; try discriminate; rewrite ?H1; try reflexivity.
            destruct s; cbn in OK; congruence.
          - intros N. apply (pred_rel_none _ _ _ (s_pred _ _ _ S)).
            specialize (K N). cbn in K. destruct (m_predictor m2); [discriminate|reflexivity]. }
        destruct DN as [DN PN]. rewrite DN.
        destruct S. constructor; cbn; auto using pred_rel_eq.
        -- intros H1 H2. split; [|reflexivity]. apply s_saves0; assumption.
      * (* rejected *)
        assert (DN : down_of i s = false) by (unfold down_of; rewrite OK; reflexivity).
        assert (BN : buf_of i s = false) by (unfold buf_of; rewrite OK; reflexivity).
        rewrite DN, BN, !graft_inject. assumption.
  - (* Predict *)
    cbn [step].
    assert (PP : predict fuel m1 results =
      (match m_last m1 with Some _ => let* '(m', s, out) := predict fuel (inject m1) [] in
         Ret (if status_ok s then set_buffer m1 (m_buffer m') else m1, s, out)
       | None => Ret (m1, match m_params m1 with None => FailedPrecondition msg_uninitialized
                          | Some _ => match m_predictor m1 with None => FailedPrecondition msg_disabled
                                      | Some _ => FailedPrecondition msg_no_stroke end end, []) end)).
    { clear. unfold predict. cbn [m_params m_predictor m_last inject].
      destruct (m_params m1) eqn:P; destruct (m_predictor m1) eqn:Q; destruct (m_last m1) eqn:L; try reflexivity.
      cbn [obind m_pos inject inject_p pm_state].
      destruct (pred_construct _ _) as [tips| |]; cbn [obind]; try reflexivity.
      rewrite model_stylus_inject. cbn [m_stylus m_loop inject].
      rewrite (model_stylus_inject fuel tips (inject_s (m_stylus m1)) (inject_l (m_loop m1))).
      change (inject_s (inject_s (m_stylus m1))) with (inject_s (m_stylus m1)).
      change (inject_l (inject_l (m_loop m1))) with (inject_l (m_loop m1)).
      destruct (model_stylus _ _ _ _ _) as [[lm out]| |]; cbn; unfold set_buffer; rewrite ?P, ?Q, ?L; reflexivity. }
    assert (PP2 : predict fuel m2 results =
      (match m_last m2 with Some _ => let* '(m', s, out) := predict fuel (inject m2) [] in
         Ret (if status_ok s then set_buffer m2 (m_buffer m') else m2, s, out)
       | None => Ret (m2, match m_params m2 with None => FailedPrecondition msg_uninitialized
                          | Some _ => match m_predictor m2 with None => FailedPrecondition msg_disabled
                                      | Some _ => FailedPrecondition msg_no_stroke end end, []) end)).
    { clear. unfold predict. cbn [m_params m_predictor m_last inject].
      destruct (m_params m2) eqn:P; destruct (m_predictor m2) eqn:Q; destruct (m_last m2) eqn:L; try reflexivity.
      cbn [obind m_pos inject inject_p pm_state].
      destruct (pred_construct _ _) as [tips| |]; cbn [obind]; try reflexivity.
      rewrite model_stylus_inject. cbn [m_stylus m_loop inject].
      rewrite (model_stylus_inject fuel tips (inject_s (m_stylus m2)) (inject_l (m_loop m2))).
      change (inject_s (inject_s (m_stylus m2))) with (inject_s (m_stylus m2)).
      change (inject_l (inject_l (m_loop m2))) with (inject_l (m_loop m2)).
      destruct (model_stylus _ _ _ _ _) as [[lm out]| |]; cbn; unfold set_buffer; rewrite ?P, ?Q, ?L; reflexivity. }
    rewrite PP, PP2. rewrite <- (s_last _ _ _ S).
    destruct (m_last m1) as [l1|] eqn:L1.
    + assert (C : inject m1 = inject m2) by (apply (s_core _ _ _ S); left; congruence).
      rewrite C. destruct (predict fuel (inject m2) []) as [[[m' s] out]| |]; cbn; auto.
      split; [reflexivity|]. destruct (status_ok s); [|assumption].
      destruct S. constructor; cbn; auto.
    + cbn. split; [|assumption].
      rewrite (s_params _ _ _ S). destruct (m_params m2); [|reflexivity].
      pose proof (pred_rel_none _ _ _ (s_pred _ _ _ S)) as N.
      destruct (m_predictor m1), (m_predictor m2); try reflexivity;
        exfalso; destruct N as [N1 N2]; (discriminate (N1 eq_refl) || discriminate (N2 eq_refl)).
  - (* Save *)
    cbn. split; [reflexivity|].
    destruct (m_last m1) as [l1|] eqn:L1.
    + assert (C : inject m1 = inject m2) by (apply (s_core _ _ _ S); left; congruence).
      assert (PQ : m_predictor m1 = m_predictor m2) by exact (f_equal m_predictor C).
      assert (SP : (match m_predictor m1 with Some p => Some p | None => m_saved_predictor m1 end) =
                   (match m_predictor m2 with Some p => Some p | None => m_saved_predictor m2 end)).
      { rewrite <- PQ. destruct (m_predictor m1) eqn:Q; [reflexivity|]. apply (s_spred_none _ _ _ S Q). }
      assert (CI : inject (save m1) = inject (save m2)).
      { transitivity (inject m1); [reflexivity|]. rewrite C. reflexivity. }
      assert (ES : esaves (save m1) = esaves (save m2)).
      { unfold esaves, eff_w, eff_s, eff_l; cbn.
        pose proof (f_equal (fun m => w_state (m_wobble m)) C) as C1.
        pose proof (f_equal (fun m => pm_state (m_pos m)) C) as C2.
        pose proof (f_equal (fun m => sm_state (m_stylus m)) C) as C3.
        pose proof (f_equal (fun m => l_samples (m_loop m)) C) as C4.
        cbn in C1, C2, C3, C4. rewrite C1, C2, C3, C4. reflexivity. }
      destruct S. constructor; cbn; auto using pred_rel_eq.
    + destruct S.
      assert (SP : pred_rel E
          (match m_predictor m1 with Some p => Some p | None => m_saved_predictor m1 end)
          (match m_predictor m2 with Some p => Some p | None => m_saved_predictor m2 end)).
      { destruct (m_predictor m1) eqn:Q1.
        - pose proof (pred_rel_none _ _ _ s_pred0) as N. destruct (m_predictor m2) eqn:Q2; [assumption|].
          exfalso. destruct N as [_ N]. discriminate (N eq_refl).
        - pose proof (pred_rel_none _ _ _ s_pred0) as N. destruct (m_predictor m2) eqn:Q2.
          + exfalso. destruct N as [N _]. discriminate (N eq_refl).
          + apply pred_rel_eq. auto. }
      constructor; cbn; auto.
      * intros [H|[_ H]]; exfalso; apply H; assumption.
      * intros H. rewrite H. pose proof (proj1 (pred_rel_none _ _ _ s_pred0) H) as H2. rewrite H2. auto.
      * intros _ H. congruence.
  - (* Restore *)
    cbn. split; [reflexivity|]. unfold restore. rewrite <- (s_active _ _ _ S).
    destruct (m_save_active m1) eqn:SA; [|assumption].
    pose proof (s_slast _ _ _ S SA) as SL.
    destruct (m_saved_last m1) as [sl|] eqn:SLE.
    + (* the saved state has a stroke in progress *)
      assert (C : inject m1 = inject m2) by (apply (s_core _ _ _ S); right; split; congruence).
      assert (N : m_saved_last m1 <> None) by congruence.
      destruct (s_saves _ _ _ S SA N) as [SP ES].
      unfold esaves in ES. inversion ES as [[E1 E2 E3 E4]].
      pose proof (f_equal m_predictor C) as C0.
      pose proof (f_equal m_wobble C) as C1. pose proof (f_equal m_pos C) as C2.
      pose proof (f_equal m_stylus C) as C3. pose proof (f_equal m_loop C) as C4.
      cbn in C0, C1, C2, C3, C4. unfold inject_w, inject_p, inject_s, inject_l in *.
      inversion C1; inversion C2; inversion C3; inversion C4.
      unfold eff_w, eff_s, eff_l in E1, E3, E4.
      assert (W : inject_w (wobble_restore (m_wobble m1)) = inject_w (wobble_restore (m_wobble m2))).
      { unfold inject_w, wobble_restore.
        destruct (w_save_active (m_wobble m1)), (w_save_active (m_wobble m2)); try discriminate; cbn; congruence. }
      assert (SS : inject_s (stylus_restore (m_stylus m1)) = inject_s (stylus_restore (m_stylus m2))).
      { unfold inject_s, stylus_restore.
        destruct (sm_save_active (m_stylus m1)), (sm_save_active (m_stylus m2)); try discriminate; cbn; congruence. }
      assert (LL : inject_l (loop_restore (m_loop m1)) = inject_l (loop_restore (m_loop m2))).
      { unfold inject_l, loop_restore.
        destruct (l_save_active (m_loop m1)), (l_save_active (m_loop m2)); try discriminate; cbn; congruence. }
      assert (PP : inject_p (pos_restore (m_pos m1)) = inject_p (pos_restore (m_pos m2))).
      { unfold inject_p, pos_restore. destruct (pm_saved (m_pos m1)), (pm_saved (m_pos m2)); try discriminate; cbn; congruence. }
      assert (EW : eff_w (wobble_restore (m_wobble m1)) = eff_w (wobble_restore (m_wobble m2))).
      { unfold eff_w, wobble_restore.
        destruct (w_save_active (m_wobble m1)) eqn:?, (w_save_active (m_wobble m2)) eqn:?; try discriminate; cbn;
          rewrite ?Heqb, ?Heqb0; congruence. }
      assert (ESS : eff_s (stylus_restore (m_stylus m1)) = eff_s (stylus_restore (m_stylus m2))).
      { unfold eff_s, stylus_restore.
        destruct (sm_save_active (m_stylus m1)) eqn:?, (sm_save_active (m_stylus m2)) eqn:?; try discriminate; cbn;
          rewrite ?Heqb, ?Heqb0; congruence. }
      assert (EL : eff_l (loop_restore (m_loop m1)) = eff_l (loop_restore (m_loop m2))).
      { unfold eff_l, loop_restore.
        destruct (l_save_active (m_loop m1)) eqn:?, (l_save_active (m_loop m2)) eqn:?; try discriminate; cbn;
          rewrite ?Heqb, ?Heqb0; congruence. }
      assert (EP : pm_saved (pos_restore (m_pos m1)) = pm_saved (pos_restore (m_pos m2))).
      { unfold pos_restore. destruct (pm_saved (m_pos m1)) eqn:?, (pm_saved (m_pos m2)) eqn:?; try discriminate; cbn; congruence. }
      assert (PR : (match m_saved_predictor m1 with Some p => Some p | None => m_predictor m1 end) =
                   (match m_saved_predictor m2 with Some p => Some p | None => m_predictor m2 end))
        by (rewrite SP; destruct (m_saved_predictor m2); congruence).
      destruct S. constructor; cbn; auto using pred_rel_eq.
      * intros _. unfold inject; cbn. rewrite PR, s_params0, W, PP, SS, LL, SL. reflexivity.
      * intros _ _. split; [assumption|]. unfold esaves; cbn. rewrite EW, ESS, EL, EP. reflexivity.
    + (* the saved state has no stroke *)
      assert (SP := s_spred _ _ _ S (or_intror SA)).
      destruct S. constructor; cbn; auto.

      * pose proof (pred_rel_none _ _ _ SP) as N.
        destruct (m_saved_predictor m1), (m_saved_predictor m2); try assumption;
          exfalso; destruct N as [N1 N2]; (discriminate (N1 eq_refl) || discriminate (N2 eq_refl)).
      * intros [H|[_ H]]; exfalso; congruence.
      * intros H. destruct (m_saved_predictor m1) eqn:Q; [discriminate|]. auto.
      * intros _ H. congruence.
Qed.

Lemma sim_run : forall E fuel cs m1 m2,
  sim E m1 m2 -> (E = false -> forallb (fun c => negb (disables_prediction c)) cs = true) ->
  match run fuel m1 cs, run fuel m2 cs with
  | Ret (m1', r1), Ret (m2', r2) => r1 = r2 /\ sim E m1' m2'
  | UB k1, UB k2 => k1 = k2
  | Diverge, Diverge => True
  | _, _ => False
  end.
Proof.
  intros E fuel cs. induction cs as [|c cs IH]; intros m1 m2 S HD.
  - cbn. auto.
  - cbn [run].
    assert (H1 : E = false -> disables_prediction c = false).
    { intros e. specialize (HD e). cbn in HD. apply andb_prop in HD. destruct HD as [HD _].
      destruct (disables_prediction c); [discriminate|reflexivity]. }
    assert (H2 : E = false -> forallb (fun c => negb (disables_prediction c)) cs = true).
    { intros e. specialize (HD e). cbn in HD. apply andb_prop in HD. tauto. }
    pose proof (sim_step E fuel m1 m2 c S H1) as K. unfold same_outcome in K.
    destruct (step fuel m1 c) as [[m1' r1]| |], (step fuel m2 c) as [[m2' r2]| |]; cbn; try contradiction; auto.
    destruct K as [-> K]. specialize (IH _ _ K H2).
    destruct (run fuel m1' cs) as [[a ra]| |], (run fuel m2' cs) as [[b rb]| |]; cbn; try contradiction; auto.
    destruct IH as [-> IH]. auto.
Qed.

(** Equality of the live states, ignoring everything saved: preserved as long
    as there is no Restore. *)
Lemma core_step : forall fuel m1 m2 c,
  inject m1 = inject m2 -> is_restore c = false ->
  same_outcome (fun a b => inject a = inject b) (step fuel m1 c) (step fuel m2 c).
Proof.
  intros fuel m1 m2 c C HR.
  pose proof (f_equal m_predictor C) as C0. pose proof (f_equal m_params C) as C1.
  pose proof (f_equal m_last C) as C2. cbn in C0, C1, C2.
  destruct c; try discriminate HR.
  - cbn. unfold reset_params. destruct (validate_params p); cbn; (split; [reflexivity|]); try assumption.
    pose proof (f_equal m_wobble C) as C6. pose proof (f_equal m_pos C) as C7. pose proof (f_equal m_stylus C) as C8.
    cbn in C6, C7, C8. unfold inject; cbn [m_predictor m_params m_wobble m_pos m_stylus m_loop m_last].
    rewrite C6, C7, C8. reflexivity.
  - cbn. unfold reset_keep. rewrite C1. destruct (m_params m2) eqn:P; cbn; (split; [reflexivity|]); try assumption.
    pose proof (f_equal m_wobble C) as C6. pose proof (f_equal m_pos C) as C7.
    pose proof (f_equal m_stylus C) as C8. pose proof (f_equal m_loop C) as C9.
    cbn in C6, C7, C8, C9. unfold inject; cbn [m_predictor m_params m_wobble m_pos m_stylus m_loop m_last].
    rewrite C0, C6, C7, C8, C9. reflexivity.
  - cbn [step]. rewrite (update_inject fuel m1), (update_inject fuel m2), C.
    destruct (update fuel (inject m2) i []) as [[[m' s] out]| |]; cbn; auto.
    split; [reflexivity|]. rewrite !inject_graft. reflexivity.
  - cbn [step].
    pose proof (f_equal m_pos C) as C3. pose proof (f_equal m_stylus C) as C4. pose proof (f_equal m_loop C) as C5.
    cbn in C3, C4, C5.
    unfold predict. rewrite C0, C1, C2.
    destruct (m_params m2) eqn:P; [|cbn; auto].
    destruct (m_predictor m2) eqn:Q; [|cbn; auto].
    destruct (m_last m2) eqn:L; [|cbn; auto].
    assert (PS : pm_state (m_pos m1) = pm_state (m_pos m2)) by (unfold inject_p in C3; inversion C3; reflexivity).
    rewrite PS. destruct (pred_construct _ _) as [tips| |]; cbn; auto.
    rewrite (model_stylus_inject _ _ (m_stylus m1)), (model_stylus_inject _ _ (m_stylus m2)), C4, C5.
    destruct (model_stylus _ _ _ _ _) as [[lm out]| |]; cbn; auto.
    split; [reflexivity|]. unfold inject; cbn. rewrite ?C3, ?C4, ?C5. pose proof (f_equal m_wobble C) as C6. cbn in C6.
    rewrite C6. reflexivity.
  - cbn. split; [reflexivity|]. exact C.
Qed.

Lemma core_run : forall fuel cs m1 m2,
  inject m1 = inject m2 -> forallb (fun c => negb (is_restore c)) cs = true ->
  match run fuel m1 cs, run fuel m2 cs with
  | Ret (m1', r1), Ret (m2', r2) => r1 = r2 /\ inject m1' = inject m2'
  | UB k1, UB k2 => k1 = k2
  | Diverge, Diverge => True
  | _, _ => False
  end.
Proof.
  intros fuel cs. induction cs as [|c cs IH]; intros m1 m2 S HD.
  - cbn. auto.
  - cbn [run]. cbn in HD. apply andb_prop in HD. destruct HD as [H1 H2]. apply negb_true_iff in H1.
    pose proof (core_step fuel m1 m2 c S H1) as K. unfold same_outcome in K.
    destruct (step fuel m1 c) as [[m1' r1]| |], (step fuel m2 c) as [[m2' r2]| |]; cbn; try contradiction; auto.
    destruct K as [-> K]. specialize (IH _ _ K H2).
    destruct (run fuel m1' cs) as [[a ra]| |], (run fuel m2' cs) as [[b rb]| |]; cbn; try contradiction; auto.
    destruct IH as [-> IH]. auto.
Qed.

End Sim.

Section SimN.
Context {A : Arith}.

(** Equality of the live states when there is a stroke in progress, ignoring
    everything saved: preserved as long as there is no Restore. *)
Record simN (m1 m2 : Modeler) : Prop := mkSimN {
  n_params : m_params m1 = m_params m2;
  n_last : m_last m1 = m_last m2;
  n_pred : reset_pred (m_predictor m1) = reset_pred (m_predictor m2);
  n_core : m_last m1 <> None -> inject m1 = inject m2
}.

Lemma simN_step : forall fuel m1 m2 c,
  simN m1 m2 -> is_restore c = false ->
  same_outcome simN (step fuel m1 c) (step fuel m2 c).
Proof.
  intros fuel m1 m2 c S HR.
  destruct (m_last m1) as [l1|] eqn:L1.
  - (* stroke in progress *)
    assert (C : inject m1 = inject m2) by (apply (n_core _ _ S); congruence).
    pose proof (core_step fuel m1 m2 c C HR) as K. unfold same_outcome in *.
    destruct (step fuel m1 c) as [[a ra]| |], (step fuel m2 c) as [[b rb]| |]; auto.
    destruct K as [K1 K2]. split; [assumption|].
    pose proof (f_equal m_params K2). pose proof (f_equal m_last K2). pose proof (f_equal m_predictor K2).
    cbn in *. constructor; congruence.
  - assert (L2 : m_last m2 = None) by (rewrite <- (n_last _ _ S); assumption).
    destruct c; try discriminate HR.
    + cbn. unfold reset_params. destruct (validate_params p); cbn; (split; [reflexivity|]); try assumption.
      constructor; cbn; congruence.
    + cbn. unfold reset_keep. rewrite (n_params _ _ S). destruct (m_params m2) eqn:P; cbn; (split; [reflexivity|]); try assumption.
      destruct S. constructor; cbn; congruence.
    + cbn [step]. rewrite (update_inject fuel m1), (update_inject fuel m2).
      rewrite (update_no_stroke _ _ _ L1), (update_no_stroke _ _ _ L2).
      assert (C : inject0 m1 = inject0 m2).
      { unfold inject0. rewrite (n_params _ _ S), (n_pred _ _ S). reflexivity. }
      rewrite C. destruct (update fuel (inject0 m2) i []) as [[[m' s] out]| |] eqn:U; cbn; auto.
      split; [reflexivity|].
      destruct (status_ok s) eqn:OK.
      * constructor; try reflexivity. intros _. rewrite !inject_graft. reflexivity.
      * assert (DN : down_of i s = false) by (unfold down_of; rewrite OK; reflexivity).
        assert (BN : buf_of i s = false) by (unfold buf_of; rewrite OK; reflexivity).
        rewrite DN, BN, !graft_inject. assumption.
    + cbn [step]. unfold predict. rewrite L1, L2, (n_params _ _ S).
      destruct (m_params m2) eqn:P; cbn; auto.
      pose proof (n_pred _ _ S) as N.
      destruct (m_predictor m1), (m_predictor m2); cbn in N; try discriminate; cbn; auto.
    + cbn. split; [reflexivity|]. destruct S. constructor; cbn; auto; congruence.
Qed.

Lemma simN_run : forall fuel cs m1 m2,
  simN m1 m2 -> forallb (fun c => negb (is_restore c)) cs = true ->
  match run fuel m1 cs, run fuel m2 cs with
  | Ret (m1', r1), Ret (m2', r2) => r1 = r2 /\ simN m1' m2'
  | UB k1, UB k2 => k1 = k2
  | Diverge, Diverge => True
  | _, _ => False
  end.
Proof.
  intros fuel cs. induction cs as [|c cs IH]; intros m1 m2 S HD.
  - cbn. auto.
  - cbn [run]. cbn in HD. apply andb_prop in HD. destruct HD as [H1 H2]. apply negb_true_iff in H1.
    pose proof (simN_step fuel m1 m2 c S H1) as K. unfold same_outcome in K.
    destruct (step fuel m1 c) as [[m1' r1]| |], (step fuel m2 c) as [[m2' r2]| |]; cbn; try contradiction; auto.
    destruct K as [-> K]. specialize (IH _ _ K H2).
    destruct (run fuel m1' cs) as [[a ra]| |], (run fuel m2' cs) as [[b rb]| |]; cbn; try contradiction; auto.
    destruct IH as [-> IH]. auto.
Qed.

End SimN.
