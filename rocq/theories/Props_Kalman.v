(** * C39: Kalman prediction waits for enough inputs, for every arithmetic. *)
From Verif Require Export Stroke.
From Coq Require Import Lia.

Section KalmanCount.
Context {A : Arith}.
Variable fuel : nat.

(** ** Proof *)
Definition kal_ok (kp : KalmanParams) (sp : SamplingParams) (n : nat) (pr : option Predictor) : Prop :=
  exists k, pr = Some (PKal k) /\ k_params k = kp /\ k_sampling k = sp /\
    kf_iter (k_x k) = Z.of_nat n /\ kf_iter (k_y k) = Z.of_nat n /\ k_times k <> [] /\ k_last k <> None.

Definition kinv (s : sinputs) (m : Modeler) : Prop :=
  (m_save_active m = match si_saved s with Some _ => true | None => false end) /\
  forall p kp, m_params m = Some p -> p_prediction p = PredKalman kp ->
  (m_last m <> None -> kal_ok kp (p_sampling p) (List.length (si_cur s)) (m_predictor m)) /\
  (forall l, si_saved s = Some l -> m_saved_last m <> None ->
     kal_ok kp (p_sampling p) (List.length l) (m_saved_predictor m)).

Lemma kf_update_iter : forall pn mn k o k', kf_update pn mn k o = Ret k' -> kf_iter k' = kf_iter k + 1.
Proof.
  intros pn mn k o k' H. unfold kf_update in H. destruct (INT_MAX <=? kf_iter k); [discriminate H|].
  destruct (kf_iter k =? 0); inversion H; reflexivity.
Qed.

Lemma kal_ok_update : forall kp sp n k pos t pr',
  0 < kp_max_times kp -> k_params k = kp -> k_sampling k = sp ->
  kf_iter (k_x k) = Z.of_nat n -> kf_iter (k_y k) = Z.of_nat n ->
  upd_pred (Some (PKal k)) pos t = Ret pr' -> kal_ok kp sp (S n) pr'.
Proof.
  intros kp sp n k pos t pr' MT KP KS X Y U. cbn in U. unfold kpred_update in U.
  bind_inv U. bind_inv E. bind_inv E0. bind_inv E0. inversion E0; subst x0. inversion E; subst x. inversion U; subst pr'.
  apply kf_update_iter in E1, E2. eexists. split; [reflexivity|]. cbn. rewrite E1, E2, X, Y.
  repeat split; auto; try lia; [|discriminate].
  rewrite KP. replace (kp_max_times kp <? 0) with false by (symmetry; apply Z.ltb_ge; lia). cbn [orb].
  unfold size_gt. replace (kp_max_times kp <? 0) with false by (symmetry; apply Z.ltb_ge; lia).
  destruct (kp_max_times kp <? _) eqn:L; [|destruct (k_times k); discriminate].
  apply Z.ltb_lt in L. rewrite app_length in L. cbn in L. destruct (k_times k) as [|a l]; cbn in L; [lia|].
  destruct l; discriminate.
Qed.

Lemma valid_max_times : forall p kp, validate_params p = OkStatus -> p_prediction p = PredKalman kp -> 0 < kp_max_times kp.
Proof.
  intros p kp V P. unfold validate_params in V. destruct (_ && _); [discriminate V|].
  destruct (validate_wobble _); try discriminate V. cbn [and_then] in V.
  destruct (validate_position _); try discriminate V. cbn [and_then] in V.
  destruct (validate_sampling _); try discriminate V. cbn [and_then] in V.
  destruct (validate_stylus _); try discriminate V. cbn [and_then] in V.
  rewrite P in V. cbn [validate_prediction] in V. unfold validate_kalman in V.
  destruct (validate_gt0_d (kp_process kp) _); try discriminate V. cbn [and_then] in V.
  destruct (validate_gt0_d (kp_measure kp) _); try discriminate V. cbn [and_then] in V.
  destruct (validate_gt0_i (kp_min_stable kp) _); try discriminate V. cbn [and_then] in V.
  destruct (validate_gt0_i (kp_max_times kp) _) eqn:K; try discriminate V.
  unfold validate_gt0_i in K. destruct (kp_max_times kp <=? 0) eqn:L; [discriminate K|]. apply Z.leb_gt in L. exact L.
Qed.

Lemma kinv_step : forall s m c m' r, good m -> kinv s m -> step fuel m c = Ret (m', r) -> kinv (sstep s c r) m'.
Proof.
  intros s m c m' r G [K1 K2] H. destruct c; cbn in H.
  - unfold reset_params in H. destruct (validate_params p); inversion H; subst; try (split; assumption).
    split; [reflexivity|]. intros q kq Q Q2. cbn. split; congruence.
  - unfold reset_keep in H. destruct (m_params m) eqn:P; inversion H; subst; [|split; [assumption|cbn; congruence]].
    split; [reflexivity|]. intros q kq Q Q2. cbn. split; congruence.
  - destruct (update fuel m i results) as [[[m1 s1] rs1]| |] eqn:U; cbn in H; try discriminate H.
    inversion H; subst. apply update_inv in U. destruct U as (out & -> & U).
    destruct U as [st N|p sm pred MP VI EV ML SU UP|p last w cc sm e MP VI EV ML IE DL WU SU NS NE
      |p last w cc sm n tip tips pred lm out MP VI EV ML IE DL WU SU NS UA UP MS
      |p last n tip1 tips1 tip2 tips2 sm lm out MP VI EV ML IE DL NS UA ME SU MS].
    + cbn. destruct st; [congruence| |]; destruct (traced i _); (split; assumption).
    + cbn. rewrite EV. split; [exact K1|]. intros q kq Q Q2. cbn in Q. split; [|intros l; apply (proj2 (K2 q kq Q Q2))].
      intros _. cbn [m_predictor si_cur List.length].
      assert (PO : prediction_on q = true) by (unfold prediction_on; rewrite Q2; reflexivity).
      destruct (g_on _ G q Q PO) as [GP _]. unfold make_predictor in GP. rewrite Q2 in GP.
      change (reset_pred (m_predictor m)) with (option_map pred_reset (m_predictor m)) in GP. rewrite GP in UP.
      eapply (kal_ok_update kq (p_sampling q) 0 (kpred_new kq (p_sampling q))); [|reflexivity|reflexivity|reflexivity|reflexivity|exact UP].
      eapply valid_max_times; [apply (g_valid _ G); eassumption|exact Q2].
    + cbn. destruct e; [congruence| |]; destruct (traced i _); (split; [exact K1|]; intros q kq Q Q2; cbn in Q; apply (K2 q kq Q Q2)).
    + cbn. rewrite EV. split; [exact K1|]. intros q kq Q Q2. cbn in Q. split; [|intros l; apply (proj2 (K2 q kq Q Q2))].
      intros _. cbn [m_predictor si_cur]. destruct (proj1 (K2 q kq Q Q2)) as (k & KA & KB & KS & KC & KD & KE & KF); [congruence|].
      rewrite KA in UP. rewrite app_length, Nat.add_comm. cbn [List.length Nat.add].
      eapply (kal_ok_update kq _ (List.length (si_cur s)) k); eauto.
      eapply valid_max_times; [apply (g_valid _ G); eassumption|exact Q2].
    + cbn. rewrite EV. split; [exact K1|]. intros q kq Q Q2. cbn in Q. split; [cbn; congruence|].
      intros l; apply (proj2 (K2 q kq Q Q2)).
  - destruct (predict fuel m results) as [[[m1 s1] rs1]| |] eqn:U; cbn in H; try discriminate H.
    inversion H; subst. apply predict_inv in U. destruct U; (split; [assumption|]); intros q kq Q Q2; apply (K2 q kq Q Q2).
  - inversion H; subst. cbn. split; [reflexivity|]. intros q kq Q Q2. cbn in Q. destruct (K2 q kq Q Q2) as [KA KB].
    cbn. split; [exact KA|]. intros l E ML. inversion E; subst l. destruct (KA ML) as (k & -> & KR). exists k. auto.
  - inversion H; subst. cbn. unfold restore. destruct (m_save_active m) eqn:SA.
    + destruct (si_saved s) as [l|] eqn:SS; [|discriminate K1]. split; [reflexivity|].
      intros q kq Q Q2. cbn in Q. destruct (K2 q kq Q Q2) as [KA KB]. cbn. split.
      * intros ML. destruct (KB l eq_refl ML) as (k & -> & KR). exists k. auto.
      * intros l2 E ML. inversion E; subst l2. apply KB; auto.
    + destruct (si_saved s) as [l|] eqn:SS; [discriminate K1|]. split; [rewrite SA, SS; reflexivity|].
      rewrite SS. exact K2.
Qed.

Lemma kinv_run : forall cs s m m' rs, good m -> kinv s m -> run fuel m cs = Ret (m', rs) -> kinv (srun s cs rs) m'.
Proof.
  induction cs as [|c cs IH]; intros s m m' rs G K R; cbn in R.
  - inversion R; subst; exact K.
  - bind_inv R. destruct x as [m1 r]. bind_inv R. destruct x as [m2 rs2]. inversion R; subst. cbn.
    eapply IH; [eapply good_step; eauto|eapply kinv_step; eauto|exact E0].
Qed.

Lemma kinv0 : kinv sinputs0 modeler0.
Proof. split; [reflexivity|]. cbn. discriminate. Qed.

Lemma after_inputs_state : forall hist s is, after_inputs fuel hist s is ->
  exists m rs, run fuel modeler0 hist = Ret (m, rs) /\ after fuel hist s /\ tracks s m /\ good m /\ cons m /\
    (forall p kp, m_params m = Some p -> p_prediction p = PredKalman kp -> m_last m <> None ->
       kal_ok kp (p_sampling p) (List.length is) (m_predictor m)).
Proof.
  intros hist s is (m & rs & R & P & I). exists m, rs. split; [exact R|].
  assert (AF : after fuel hist s) by (exists m, rs; auto). split; [exact AF|].
  split; [subst s; exact (tracks_run _ _ _ _ _ _ tracks0 R)|].
  split; [exact (good_run _ _ _ _ _ good0 R)|].
  split; [exact (cons_run _ _ _ _ _ cons0 R)|].
  intros p kp MP PP ML. pose proof (kinv_run _ _ _ _ _ good0 kinv0 R) as [_ K]. subst is. rewrite map_length. apply (K p kp MP PP); exact ML.
Qed.

(** ** C39 *)
(** Too few inputs: Predict succeeds with nothing. *)
Theorem C39_predict_empty_until_stable : forall hist s is p kp rs,
  after_inputs fuel hist s is -> ps_params s = Some p -> p_prediction p = PredKalman kp -> in_stroke s = true ->
  Z.of_nat (List.length is) < kp_min_stable kp ->
  answers fuel hist [CPredict rs] = Ret [RResults OkStatus []].
Proof.
  intros hist s is p kp rs H P PK IS LT.
  destruct (after_inputs_state _ _ _ H) as (m & r0 & R & _ & (T1 & T2 & _) & G & C & K).
  unfold in_stroke in IS. destruct (m_last m) as [last|] eqn:ML; [|rewrite T2 in IS; discriminate IS].
  assert (MP : m_params m = Some p) by congruence.
  destruct (K p kp MP PK ltac:(discriminate)) as (k & MR & KP & KS & KX & KY & KT & KL).
  rewrite (answers_from _ _ _ _ _ R). cbn [run step]. unfold predict. rewrite MP, MR, ML. cbn [pred_construct].
  unfold kpred_predict, kpred_estimate, kpred_stable. rewrite KP, KX, KY.
  replace (kp_min_stable kp <=? _) with false by (symmetry; apply Z.leb_gt; exact LT).
  reflexivity.
Qed.

(** Enough inputs: Predict, if it returns, returns at least one result.  The
    arithmetic fact needed holds of both instances (see below). *)
Definition trunc_max_one : Prop := forall x z, ftoint (std_fmax x f1) = Some z -> 1 <= z.

Lemma predict_nonempty_from_stable : forall hist s is p kp rs r,
  trunc_max_one ->
  after_inputs fuel hist s is -> ps_params s = Some p -> p_prediction p = PredKalman kp -> in_stroke s = true ->
  kp_min_stable kp <= Z.of_nat (List.length is) ->
  answers fuel hist [CPredict rs] = Ret r ->
  exists first more, r = [RResults OkStatus (first :: more)].
Proof.
  intros hist s is p kp rs r TR H P PK IS LE AN.
  destruct (after_inputs_state _ _ _ H) as (m & r0 & R & AF & (T1 & T2 & _) & G & C & K).
  unfold in_stroke in IS. destruct (m_last m) as [last|] eqn:ML; [|rewrite T2 in IS; discriminate IS].
  assert (MP : m_params m = Some p) by congruence.
  destruct (K p kp MP PK ltac:(discriminate)) as (k & MR & KP & KS & KX & KY & KT & KL).
  apply answers1 in AN. destruct AN as (m1 & r1 & m' & r2 & R1 & S & -> & _).
  rewrite R in R1. inversion R1; subst m1 r1. cbn [step] in S. bind_inv S. destruct x as [[m2 s2] o2]. inversion S; subst m' r2.
  clear S R1. unfold predict in E. rewrite MP, MR, ML in E. cbn [pred_construct] in E.
  bind_inv E. bind_inv E. destruct x0 as [lm out]. inversion E; subst m2 s2 o2. clear E.
  match goal with K1 : kpred_predict _ _ = _, K2 : model_stylus _ _ _ _ _ = _ |- _ => revert K1 K2 end. intros E1 E2.
  assert (NE : x <> []).
  { unfold kpred_predict in E1. unfold kpred_estimate, kpred_stable in E1. rewrite KX, KY in E1.
    replace (kp_min_stable (k_params k) <=? _) with true in E1 by (symmetry; apply Z.leb_le; rewrite KP; exact LE).
    cbn [andb] in E1. destruct (k_times k) as [|t0 ts]; [congruence|]. destruct (k_last k); [|congruence].
    cbv zeta in E1. bind_inv E1. unfold to_int in E1. destruct (kpred_number_of_points _ _ _); [|discriminate E1].
    inversion E1; subst. unfold cubic_connector, to_int in E. destruct (connector_points _ _ _ _) as [n|] eqn:CN; [|discriminate E].
    unfold connector_points in CN. apply TR in CN. inversion E; subst.
    destruct (Z.to_nat n) as [|n'] eqn:ZN; [lia|]. cbn [seq map]. discriminate. }
  apply model_stylus_length in E2. destruct x as [|x0 xs]; [congruence|]. destruct out as [|o os]; [discriminate E2|].
  eauto.
Qed.

End KalmanCount.
