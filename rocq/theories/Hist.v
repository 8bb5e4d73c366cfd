(** * Invariants of all histories, for every arithmetic. *)
From Verif Require Export Sim.
From Coq Require Import Lia.

Section Hist.
Context {A : Arith}.

Lemma upd_pred_reset : forall o pos t o', upd_pred o pos t = Ret o' -> reset_pred o' = reset_pred o.
Proof.
  intros [p|] pos t o' H; cbn in H; [|inversion H; reflexivity].
  destruct p as [pp sp lp|k]; cbn in H; [inversion H; reflexivity|].
  unfold kpred_update in H.
  destruct (kf_update _ _ (k_x k) _); cbn in H; try discriminate.
  destruct (kf_update _ _ (k_y k) _); cbn in H; try discriminate.
  inversion H; reflexivity.
Qed.

Lemma reset_pred_idem : forall o, reset_pred (reset_pred o) = reset_pred o.
Proof. intros [p|]; cbn; [rewrite pred_reset_idem|]; reflexivity. Qed.

Lemma update_pred_reset : forall fuel m i rs m' s rs',
  update fuel m i rs = Ret (m', s, rs') -> reset_pred (m_predictor m') = reset_pred (m_predictor m).
Proof.
  intros fuel m i rs m' s rs' U. apply update_inv in U. destruct U as (out & _ & U).
  destruct U; cbn; try reflexivity.
  - apply upd_pred_reset in H4. rewrite H4. apply reset_pred_idem.
  - apply upd_pred_reset in H9. exact H9.
Qed.

Lemma make_predictor_reset : forall p, reset_pred (make_predictor p) = make_predictor p.
Proof. intros p. unfold make_predictor. destruct (p_prediction p); reflexivity. Qed.

Lemma make_predictor_on : forall p, prediction_on p = true -> make_predictor p <> None.
Proof. intros p H. unfold make_predictor, prediction_on in *. destruct (p_prediction p); discriminate. Qed.
Lemma make_predictor_off : forall p, prediction_on p = false -> make_predictor p = None.
Proof. intros p H. unfold make_predictor, prediction_on in *. destruct (p_prediction p); try discriminate; reflexivity. Qed.

Record good (m : Modeler) : Prop := mkGood {
  g_valid : forall p, m_params m = Some p -> validate_params p = OkStatus;
  g_none : m_params m = None ->
           m_predictor m = None /\ m_saved_predictor m = None /\ m_last m = None /\ m_saved_last m = None;
  g_on : forall p, m_params m = Some p -> prediction_on p = true ->
         reset_pred (m_predictor m) = make_predictor p /\
         (m_save_active m = true -> reset_pred (m_saved_predictor m) = make_predictor p)
}.

Lemma good0 : good modeler0.
Proof. constructor; cbn; intros; try discriminate; auto. Qed.

Lemma good_step : forall fuel m c m' r, good m -> step fuel m c = Ret (m', r) -> good m'.
Proof.
  intros fuel m c m' r G H. destruct c; cbn in H.
  - unfold reset_params in H. destruct (validate_params p) eqn:V; inversion H; subst; try assumption.
    constructor; cbn; intros; try discriminate.
    + congruence.
    + inversion H0; subst. split; [apply make_predictor_reset|discriminate].
  - unfold reset_keep in H. destruct (m_params m) eqn:P; inversion H; subst; try assumption.
    destruct G. constructor; cbn; intros; try discriminate; try congruence.
    + apply g_valid0. congruence.
    + split; [|discriminate]. apply (g_on0 p); congruence.
  - destruct (update fuel m i results) as [[[m1 s1] rs1]| |] eqn:U; cbn in H; try discriminate.
    inversion H; subst. pose proof (update_pred_reset _ _ _ _ _ _ _ U) as PR.
    pose proof (update_params_same _ _ _ _ _ _ _ U) as PS.
    apply update_inv in U. destruct U as (out & -> & U).
    destruct G. constructor; intros.
    + apply g_valid0. congruence.
    + rewrite PS in H0. destruct U; cbn; auto; congruence.
    + rewrite PS in H0. rewrite PR. destruct (g_on0 _ H0 H1) as [K1 K2]. split; [assumption|].
      destruct U; cbn; assumption.
  - destruct (predict fuel m results) as [[[m1 s1] rs1]| |] eqn:U; cbn in H; try discriminate.
    inversion H; subst. apply predict_inv in U. destruct U; [assumption|].
    destruct G. constructor; cbn; auto.
  - inversion H; subst. destruct G. constructor; cbn; auto.
    + intros P. destruct (g_none0 P) as (N1 & N2 & N3 & N4). rewrite N1. auto.
    + intros p P O. destruct (g_on0 _ P O) as [K1 K2]. split; [assumption|]. intros _.
      pose proof (make_predictor_on _ O). destruct (m_predictor m); [assumption|]. cbn in K1. congruence.
  - inversion H; subst. unfold restore. destruct (m_save_active m) eqn:SA; [|assumption].
    destruct G. constructor; cbn; auto.
    + intros P. destruct (g_none0 P) as (N1 & N2 & N3 & N4). rewrite N1, N2, N4. auto.
    + intros p P O. destruct (g_on0 _ P O) as [K1 K2]. specialize (K2 SA).
      split; [|auto]. pose proof (make_predictor_on _ O).
      destruct (m_saved_predictor m); [assumption|]. cbn in K2. congruence.
Qed.

Lemma good_run : forall fuel cs m m' rs, good m -> run fuel m cs = Ret (m', rs) -> good m'.
Proof. intros fuel. apply (run_invariant fuel good). intros. eapply good_step; eauto. Qed.

(** Prediction never enabled: no predictor, no saved predictor. *)
Definition bare (m : Modeler) : Prop := m_predictor m = None /\ m_saved_predictor m = None.

Lemma bare_step : forall fuel m c m' r,
  enables_prediction c = false -> bare m -> step fuel m c = Ret (m', r) -> bare m'.
Proof.
  intros fuel m c m' r EN [B1 B2] H. destruct c; cbn in H.
  - unfold reset_params in H. destruct (validate_params p) eqn:V; inversion H; subst; split; cbn; auto.
    apply make_predictor_off. exact EN.
  - unfold reset_keep in H. destruct (m_params m) eqn:P; inversion H; subst; split; auto.
  - destruct (update fuel m i results) as [[[m1 s1] rs1]| |] eqn:U; cbn in H; try discriminate.
    inversion H; subst. apply update_inv in U. destruct U as (out & -> & U).
    destruct U; split; cbn; auto; rewrite B1 in *; cbn in *; congruence.
  - destruct (predict fuel m results) as [[[m1 s1] rs1]| |] eqn:U; cbn in H; try discriminate.
    inversion H; subst. apply predict_inv in U. destruct U; split; assumption.
  - inversion H; subst. split; cbn; auto. rewrite B1. assumption.
  - inversion H; subst. unfold restore. destruct (m_save_active m); split; cbn; auto. rewrite B2. assumption.
Qed.

Lemma bare_run : forall fuel cs m m' rs,
  forallb (fun c => negb (enables_prediction c)) cs = true ->
  bare m -> run fuel m cs = Ret (m', rs) -> bare m'.
Proof.
  intros fuel cs. induction cs as [|c cs IH]; intros m m' rs F B R; cbn in R.
  - inversion R; subst; assumption.
  - cbn in F. apply andb_prop in F. destruct F as [F1 F2]. apply negb_true_iff in F1.
    destruct (step fuel m c) as [[m1 r]| |] eqn:E; cbn in R; try discriminate.
    destruct (run fuel m1 cs) as [[m2 rs2]| |] eqn:E2; cbn in R; try discriminate.
    inversion R; subst. eapply IH; [assumption| |eassumption]. eapply bare_step; eauto.
Qed.

(** No Restore: the predictor is that of the parameters. *)
Definition plain (m : Modeler) : Prop :=
  reset_pred (m_predictor m) = match m_params m with Some p => make_predictor p | None => None end.

Lemma plain_step : forall fuel m c m' r,
  is_restore c = false -> plain m -> step fuel m c = Ret (m', r) -> plain m'.
Proof.
  unfold plain. intros fuel m c m' r NR P H. destruct c; cbn in H; try discriminate NR.
  - unfold reset_params in H. destruct (validate_params p) eqn:V; inversion H; subst; auto. cbn.
    apply make_predictor_reset.
  - unfold reset_keep in H. destruct (m_params m) eqn:Q; inversion H; subst; cbn; rewrite ?Q; auto.
  - destruct (update fuel m i results) as [[[m1 s1] rs1]| |] eqn:U; cbn in H; try discriminate.
    inversion H; subst. rewrite (update_pred_reset _ _ _ _ _ _ _ U), (update_params_same _ _ _ _ _ _ _ U). assumption.
  - destruct (predict fuel m results) as [[[m1 s1] rs1]| |] eqn:U; cbn in H; try discriminate.
    inversion H; subst. apply predict_inv in U. destruct U; assumption.
  - inversion H; subst. assumption.
Qed.

Lemma plain_run : forall fuel cs m m' rs,
  forallb (fun c => negb (is_restore c)) cs = true ->
  plain m -> run fuel m cs = Ret (m', rs) -> plain m'.
Proof.
  intros fuel cs. induction cs as [|c cs IH]; intros m m' rs F B R; cbn in R.
  - inversion R; subst; assumption.
  - cbn in F. apply andb_prop in F. destruct F as [F1 F2]. apply negb_true_iff in F1.
    destruct (step fuel m c) as [[m1 r]| |] eqn:E; cbn in R; try discriminate.
    destruct (run fuel m1 cs) as [[m2 rs2]| |] eqn:E2; cbn in R; try discriminate.
    inversion R; subst. eapply IH; [assumption| |eassumption]. eapply plain_step; eauto.
Qed.

Lemma bare0 : bare modeler0.
Proof. split; reflexivity. Qed.
Lemma plain0 : plain modeler0.
Proof. reflexivity. Qed.

(** ** What stays in place between Save and Restore *)

(** All parts of [m] saved, no Down accepted since. *)
Record kept (m0 m : Modeler) : Prop := mkKept {
  k_params' : m_params m = m_params m0;
  k_active' : m_save_active m = true;
  k_sp : m_saved_predictor m = m_saved_predictor (save m0);
  k_sl : m_saved_last m = m_last m0;
  k_w : w_saved (m_wobble m) = w_state (m_wobble m0) /\ w_save_active (m_wobble m) = true /\
        w_params (m_wobble m) = w_params (m_wobble m0);
  k_p : pm_saved (m_pos m) = Some (pm_state (m_pos m0)) /\ pm_params (m_pos m) = pm_params (m_pos m0);
  k_s : sm_saved (m_stylus m) = sm_state (m_stylus m0) /\ sm_save_active (m_stylus m) = true /\
        sm_params (m_stylus m) = sm_params (m_stylus m0);
  k_l : l_saved (m_loop m) = l_samples (m_loop m0) /\ l_save_active (m_loop m) = true /\
        l_params (m_loop m) = l_params (m_loop m0);
  k_pn : m_saved_predictor m = None -> m_predictor m = None
}.

Lemma kept_save : forall m,
  (m_predictor m <> None \/ m_saved_predictor m = None) -> kept m (save m).
Proof.
  intros m H. constructor; cbn; repeat split; auto.
  intros K. destruct (m_predictor m); [discriminate|reflexivity].
Qed.

Lemma wobble_update_kept : forall w pos t w' c,
  wobble_update w pos t = Ret (w', c) ->
  w_saved w' = w_saved w /\ w_save_active w' = w_save_active w /\ w_params w' = w_params w.
Proof.
  intros w pos t w' c H. unfold wobble_update in H.
  destruct (wp_enabled (w_params w)); cbn in H; [|inversion H; auto].
  destruct (back _); [|discriminate].
  bind_inv H. destruct (feqb _ _); inversion H; auto.
Qed.

Lemma stylus_update_kept : forall s pos t a b c s',
  stylus_update s pos t a b c = Ret s' ->
  sm_saved s' = sm_saved s /\ sm_save_active s' = sm_save_active s /\ sm_params s' = sm_params s.
Proof.
  intros s pos t a b c s' H. unfold stylus_update in H.
  destruct (negb _ && _ && _ && _); [inversion H; auto|].
  destruct (match back (s_raw (sm_state s)) with Some _ => _ | None => _ end) as [v ac].
  bind_inv H. inversion H; auto.
Qed.

Lemma loop_update_kept : forall l v t l' x,
  loop_update l v t = (l', x) ->
  l_saved l' = l_saved l /\ l_save_active l' = l_save_active l /\ l_params l' = l_params l.
Proof.
  intros l v t l' x H. unfold loop_update in H.
  destruct (lp_enabled (l_params l)); cbn in H; inversion H; auto.
Qed.

Lemma model_stylus_kept : forall fuel tips sm lm x pt lm' out,
  model_stylus_loop fuel tips sm lm x pt = Ret (lm', out) ->
  l_saved lm' = l_saved lm /\ l_save_active lm' = l_save_active lm /\ l_params lm' = l_params lm.
Proof.
  intros fuel tips. induction tips as [|tip rest IH]; intros sm lm x pt lm' out H; cbn in H.
  - inversion H; auto.
  - bind_inv H. bind_inv H. destruct (loop_update lm _ _) as [l1 v1] eqn:LU.
    apply loop_update_kept in LU. bind_inv H. destruct x2 as [l2 o2]. inversion H; subst.
    apply IH in E1. intuition congruence.
Qed.

Lemma kept_step : forall fuel m0 m c m' r,
  kept m0 m -> is_reset c = false -> is_save c = false ->
  step fuel m c = Ret (m', r) -> accepted_down c r = false -> kept m0 m'.
Proof.
  intros fuel m0 m c m' r K NR NS H ND. destruct c; try discriminate NR; try discriminate NS; cbn in H.
  - destruct (update fuel m i results) as [[[m1 s1] rs1]| |] eqn:U; cbn in H; try discriminate.
    inversion H; subst. pose proof (update_pred_none _ _ _ _ _ _ _ U) as UP. clear UP.
    pose proof (update_pred_reset _ _ _ _ _ _ _ U) as UP.
    assert (PN : m_predictor m = None -> m_predictor m' = None).
    { intros N. rewrite N in UP. destruct (m_predictor m'); [discriminate|reflexivity]. }
    apply update_inv in U. destruct U as (out & -> & U).
    destruct U.
    + assumption.
    + cbn in ND. rewrite H2 in ND. discriminate.
    + apply wobble_update_kept in H6. apply stylus_update_kept in H7.
      destruct K. constructor; cbn; auto; intuition congruence.
    + apply wobble_update_kept in H6. apply stylus_update_kept in H7.
      apply model_stylus_kept in H11.
      destruct K. constructor; cbn in *; auto; intuition congruence.
    + apply stylus_update_kept in H9. apply model_stylus_kept in H10.
      destruct K. constructor; cbn in *; auto; intuition congruence.
  - destruct (predict fuel m results) as [[[m1 s1] rs1]| |] eqn:U; cbn in H; try discriminate.
    inversion H; subst. apply predict_inv in U. destruct U; [assumption|].
    destruct K. constructor; cbn; auto.
  - inversion H; subst. unfold restore. destruct K. rewrite k_active'0.
    destruct k_w0 as (W1 & W2 & W3). destruct k_p0 as (P1 & P2). destruct k_s0 as (S1 & S2 & S3).
    destruct k_l0 as (L1 & L2 & L3).
    constructor; cbn; auto.
    + unfold wobble_restore. rewrite W2. cbn. auto.
    + unfold pos_restore. rewrite P1. cbn. auto.
    + unfold stylus_restore. rewrite S2. cbn. auto.
    + unfold loop_restore. rewrite L2. cbn. auto.
    + intros N. rewrite N. auto.
Qed.

Lemma kept_restore : forall m0 m, kept m0 m ->
  (m_predictor m0 <> None \/ m_saved_predictor m0 = None) ->
  restore m = set_buffer (save m0) (m_buffer m).
Proof.
  intros m0 m K HP. unfold restore. destruct K. rewrite k_active'0.
  destruct k_w0 as (W1 & W2 & W3). destruct k_p0 as (P1 & P2). destruct k_s0 as (S1 & S2 & S3).
  destruct k_l0 as (L1 & L2 & L3).
  unfold wobble_restore, pos_restore, stylus_restore, loop_restore.
  rewrite W1, W2, W3, P1, P2, S1, S2, S3, L1, L2, L3, k_sl0, k_sp0, k_params'0.
  unfold set_buffer, save, wobble_save, pos_save, stylus_save, loop_save. cbn.
  f_equal. destruct (m_predictor m0) eqn:Q; [reflexivity|].
  destruct HP as [HP|HP]; [congruence|]. cbn in k_sp0. rewrite Q in k_sp0. rewrite HP in *. rewrite k_pn0; auto.
Qed.

(** Saved with no stroke in progress: Downs may be accepted in between. *)
Record kept0 (m0 m : Modeler) : Prop := mkKept0 {
  k0_params : m_params m = m_params m0;
  k0_active : m_save_active m = true;
  k0_sp : m_saved_predictor m = m_saved_predictor (save m0);
  k0_sl : m_saved_last m = None;
  k0_pn : m_saved_predictor m = None -> m_predictor m = None
}.

Lemma kept0_save : forall m,
  m_last m = None -> (m_predictor m <> None \/ m_saved_predictor m = None) -> kept0 m (save m).
Proof.
  intros m L H. constructor; cbn; auto.
  intros K. destruct (m_predictor m); [discriminate|reflexivity].
Qed.

Lemma kept0_step : forall fuel m0 m c m' r,
  kept0 m0 m -> is_reset c = false -> is_save c = false ->
  step fuel m c = Ret (m', r) -> kept0 m0 m'.
Proof.
  intros fuel m0 m c m' r K NR NS H. destruct c; try discriminate NR; try discriminate NS; cbn in H.
  - destruct (update fuel m i results) as [[[m1 s1] rs1]| |] eqn:U; cbn in H; try discriminate.
    inversion H; subst. pose proof (update_pred_reset _ _ _ _ _ _ _ U) as UP.
    assert (PN : m_predictor m = None -> m_predictor m' = None).
    { intros N. rewrite N in UP. destruct (m_predictor m'); [discriminate|reflexivity]. }
    apply update_inv in U. destruct U as (out & -> & U).
    destruct U; destruct K; constructor; cbn in *; auto.
  - destruct (predict fuel m results) as [[[m1 s1] rs1]| |] eqn:U; cbn in H; try discriminate.
    inversion H; subst. apply predict_inv in U. destruct U; [assumption|].
    destruct K. constructor; cbn; auto.
  - inversion H; subst. unfold restore. destruct K. rewrite k0_active0.
    constructor; cbn; auto. intros N. rewrite N. auto.
Qed.

Lemma kept0_restore : forall m0 m, kept0 m0 m -> m_last m0 = None ->
  (m_predictor m0 <> None \/ m_saved_predictor m0 = None) ->
  sim true (restore m) (save m0).
Proof.
  intros m0 m K L HP. unfold restore. destruct K. rewrite k0_active0.
  assert (PP : (match m_saved_predictor m with Some p => Some p | None => m_predictor m end) = m_predictor m0).
  { rewrite k0_sp0 in *. cbn in *. destruct (m_predictor m0) eqn:Q; [reflexivity|].
    destruct HP as [HP|HP]; [congruence|]. rewrite HP in *. auto. }
  constructor; cbn; auto; try congruence.
  - intros [H|[_ H]]; congruence.
Qed.

(** An idle configured modeler with nothing saved is as good as new. *)
Definition fresh (p : StrokeModelParams) : Modeler := fst (reset_params modeler0 p).

Lemma fresh_eq : forall p, validate_params p = OkStatus ->
  fresh p = mkModeler (make_predictor p) (Some p) wobble0 pos0 stylus0
              (loop_reset loop0 (pp_loop (p_position p))) [] None None None false.
Proof. intros p V. unfold fresh, reset_params. rewrite V. reflexivity. Qed.

Lemma idle_sim_false : forall m p,
  m_params m = Some p -> validate_params p = OkStatus -> m_last m = None -> m_save_active m = false ->
  reset_pred (m_predictor m) = make_predictor p -> prediction_on p = true ->
  sim false m (fresh p).
Proof.
  intros m p P V L SA PR O. rewrite (fresh_eq p V). constructor; cbn; auto; try congruence.
  - rewrite PR. symmetry. apply make_predictor_reset.
  - intros [H|[H _]]; congruence.
  - intros [H|H]; congruence.
  - intros N. rewrite N in PR. cbn in PR. exfalso. apply (make_predictor_on _ O). auto.
Qed.

Lemma idle_sim_true : forall m p,
  m_params m = Some p -> validate_params p = OkStatus -> m_last m = None -> m_save_active m = false ->
  m_predictor m = None -> m_saved_predictor m = None -> prediction_on p = false ->
  sim true m (fresh p).
Proof.
  intros m p P V L SA PR SP O. rewrite (fresh_eq p V). constructor; cbn; auto; try congruence.
  - rewrite PR. symmetry. apply make_predictor_off; assumption.
  - intros [H|[H _]]; congruence.
Qed.

Lemma idle_simN : forall m p,
  m_params m = Some p -> validate_params p = OkStatus -> m_last m = None ->
  reset_pred (m_predictor m) = make_predictor p ->
  simN m (fresh p).
Proof.
  intros m p P V L PR. rewrite (fresh_eq p V). constructor; cbn; auto; try congruence.
  rewrite PR. symmetry. apply make_predictor_reset.
Qed.

(** ** From states to histories *)
Lemma answers_from : forall fuel h m rs cs,
  run fuel modeler0 h = Ret (m, rs) ->
  answers fuel h cs = let* '(_, r) := run fuel m cs in Ret r.
Proof. intros. unfold answers. rewrite H. reflexivity. Qed.

Lemma answers_ret : forall fuel h cs r,
  answers fuel h cs = Ret r ->
  exists m rs m', run fuel modeler0 h = Ret (m, rs) /\ run fuel m cs = Ret (m', r).
Proof.
  intros fuel h cs r H. unfold answers in H.
  bind_inv H. destruct x as [m rs]. bind_inv H. destruct x as [m' r']. inversion H; subst. eauto 6.
Qed.

Lemma answers1 : forall fuel h c r,
  answers fuel h [c] = Ret r ->
  exists m rs m' r0, run fuel modeler0 h = Ret (m, rs) /\ step fuel m c = Ret (m', r0) /\ r = [r0] /\
    run fuel modeler0 (h ++ [c]) = Ret (m', rs ++ [r0]).
Proof.
  intros fuel h c r H. apply answers_ret in H. destruct H as (m & rs & m' & R & S).
  cbn in S. bind_inv S. destruct x as [m1 r0]. cbn in S. inversion S; subst.
  exists m, rs, m', r0. repeat split; auto. rewrite run_app, R. cbn. rewrite E. reflexivity.
Qed.

Lemma indist_sim : forall fuel h1 h2 m1 m2 r1 r2,
  run fuel modeler0 h1 = Ret (m1, r1) -> run fuel modeler0 h2 = Ret (m2, r2) ->
  sim true m1 m2 -> indistinguishable fuel h1 h2.
Proof.
  intros fuel h1 h2 m1 m2 r1 r2 R1 R2 S cs.
  rewrite (answers_from _ _ _ _ _ R1), (answers_from _ _ _ _ _ R2).
  pose proof (sim_run true fuel cs m1 m2 S ltac:(discriminate)) as K.
  destruct (run fuel m1 cs) as [[a ra]| |], (run fuel m2 cs) as [[b rb]| |]; cbn; try contradiction; try congruence.
  destruct K as [-> _]. reflexivity.
Qed.

Lemma indist_sim_false : forall fuel h1 h2 m1 m2 r1 r2,
  run fuel modeler0 h1 = Ret (m1, r1) -> run fuel modeler0 h2 = Ret (m2, r2) ->
  sim false m1 m2 ->
  indistinguishable_by (fun cs => forallb (fun c => negb (disables_prediction c)) cs = true) fuel h1 h2.
Proof.
  intros fuel h1 h2 m1 m2 r1 r2 R1 R2 S cs HC.
  rewrite (answers_from _ _ _ _ _ R1), (answers_from _ _ _ _ _ R2).
  pose proof (sim_run false fuel cs m1 m2 S (fun _ => HC)) as K.
  destruct (run fuel m1 cs) as [[a ra]| |], (run fuel m2 cs) as [[b rb]| |]; cbn; try contradiction; try congruence.
  destruct K as [-> _]. reflexivity.
Qed.

Lemma indist_simN : forall fuel h1 h2 m1 m2 r1 r2,
  run fuel modeler0 h1 = Ret (m1, r1) -> run fuel modeler0 h2 = Ret (m2, r2) ->
  simN m1 m2 ->
  indistinguishable_by (fun cs => forallb (fun c => negb (is_restore c)) cs = true) fuel h1 h2.
Proof.
  intros fuel h1 h2 m1 m2 r1 r2 R1 R2 S cs HC.
  rewrite (answers_from _ _ _ _ _ R1), (answers_from _ _ _ _ _ R2).
  pose proof (simN_run fuel cs m1 m2 S HC) as K.
  destruct (run fuel m1 cs) as [[a ra]| |], (run fuel m2 cs) as [[b rb]| |]; cbn; try contradiction; try congruence.
  destruct K as [-> _]. reflexivity.
Qed.

End Hist.
