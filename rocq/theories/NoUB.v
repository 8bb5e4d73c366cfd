(** * No undefined behaviour, over all histories, for every arithmetic in which the
      number of steps between two inputs is well defined. *)
From Verif Require Export Made.
From Coq Require Import Lia.

Section NoUB.
Context {A : Arith}.
Variable fuel : nat.

Definition noub {X} (o : outcome X) : Prop := forall k, o <> UB k.

Lemma noub_bind : forall {X Y} (o : outcome X) (f : X -> outcome Y),
  noub o -> (forall x, o = Ret x -> noub (f x)) -> noub (obind o f).
Proof. intros X Y [x|k|] f H1 H2; cbn; [apply H2; reflexivity|exfalso; eapply H1; reflexivity|discriminate]. Qed.
Lemma noub_ret : forall {X} (x : X), noub (Ret x).
Proof. discriminate. Qed.

(** ** The stylus modeler *)
Lemma norm_up_noub : forall n a, noub (norm_up n a).
Proof. induction n as [|n IH]; intros a; cbn; destruct (fltb _ _); try discriminate. apply IH. Qed.
Lemma norm_down_noub : forall n a, noub (norm_down n a).
Proof. induction n as [|n IH]; intros a; cbn; destruct (dltb _ _); try discriminate. apply IH. Qed.
Lemma normalize_noub : forall n a, noub (normalize_angle n a).
Proof. intros. unfold normalize_angle. apply noub_bind; [apply norm_up_noub|]. intros x _. apply norm_down_noub. Qed.
Lemma interp_angle_noub : forall n a b x, noub (interp_angle n a b x).
Proof.
  intros. unfold interp_angle. apply noub_bind; [apply normalize_noub|]. intros y _.
  apply noub_bind; [apply normalize_noub|]. intros z _. apply normalize_noub.
Qed.
Lemma interp_result_noub : forall n a b x, noub (interp_result n a b x).
Proof.
  intros. unfold interp_result. apply noub_bind; [|discriminate].
  destruct (_ || _); [discriminate|apply interp_angle_noub].
Qed.
Lemma query_noub : forall sm tip n, noub (stylus_query fuel sm tip n).
Proof.
  intros. destruct (query_eq fuel sm tip n) as [[_ ->]|(_ & o & -> & [(p & _ & ->)|(_ & r & _ & ->)])]; [discriminate| |discriminate].
  apply noub_bind; [apply interp_result_noub|discriminate].
Qed.
Lemma model_stylus_noub : forall tips sm lm pt, noub (model_stylus fuel tips sm lm pt).
Proof.
  intros. unfold model_stylus. generalize (loop_get lm). revert lm pt.
  induction tips as [|tip rest IH]; intros lm pt v; [discriminate|]. cbn [model_stylus_loop].
  apply noub_bind; [apply query_noub|]. intros pj _. apply noub_bind; [apply interp_result_noub|]. intros res _.
  destruct (loop_update lm (r_vel res) (t_time tip)) as [l' v']. apply noub_bind; [apply IH|]. intros [l2 o2] _. discriminate.
Qed.

Lemma stylus_trim_noub : forall p raw, validate_stylus p = OkStatus -> noub (stylus_trim p raw).
Proof.
  intros p raw V. assert (K : (if sy_normal p then 0 < sy_min_samples p else 0 < sy_max_samples p)%Z).
  { unfold validate_stylus, validate_gt0_i in V. destruct (sy_normal p).
    - destruct (Z.leb_spec (sy_min_samples p) 0); [discriminate|lia].
    - destruct (Z.leb_spec (sy_max_samples p) 0); [discriminate|lia]. }
  clear V. induction raw as [|a rest IH]; cbn [stylus_trim]; unfold should_drop; cbn [List.length];
    destruct (sy_normal p).
  - unfold size_gt. cbn. rewrite !(proj2 (Z.ltb_ge _ _)) by lia. discriminate.
  - unfold size_gt. cbn. rewrite !(proj2 (Z.ltb_ge _ _)) by lia. discriminate.
  - destruct (size_gt (a :: rest) (sy_min_samples p)) eqn:G; [|discriminate].
    destruct rest as [|b rest]; [unfold size_gt in G; cbn in G; destruct (sy_min_samples p <? 0)%Z; [discriminate|]; apply Z.ltb_lt in G; lia|].
    destruct (back_some (a :: b :: rest)) as [x B]; [discriminate|]. rewrite B. cbn [nth_error obind].
    destruct (dltb _ _); [exact IH|discriminate].
  - cbn [obind]. destruct (size_gt _ _); [exact IH|discriminate].
Qed.
Lemma stylus_update_noub : forall m pos t a b c, validate_stylus (sm_params m) = OkStatus ->
  noub (stylus_update m pos t a b c).
Proof.
  intros m pos t a b c V. unfold stylus_update. destruct (negb _ && _ && _ && _); [discriminate|].
  destruct (match back (s_raw (sm_state m)) with Some _ => _ | None => _ end) as [v acc].
  apply noub_bind; [apply stylus_trim_noub; exact V|]. discriminate.
Qed.

(** ** The wobble smoother *)
Lemma wobble_trim_ret : forall samples a b c d st, wobble_trim samples a b c d = Ret st -> w_samples st <> [].
Proof.
  induction samples as [|s rest IH]; intros a b c d st H; cbn in H; [discriminate|].
  destruct (dltb _ _); [eapply IH; exact H|]. inversion H; subst. discriminate.
Qed.
Lemma wobble_update_nonempty : forall w pos t w' c, wobble_update w pos t = Ret (w', c) ->
  w_samples (w_state w) <> [] -> w_samples (w_state w') <> [].
Proof.
  intros w pos t w' c H N. unfold wobble_update in H. destruct (negb _); [inversion H; subst; exact N|].
  destruct (back _); [|discriminate]. bind_inv H. apply wobble_trim_ret in E.
  destruct (feqb _ _); inversion H; subst; exact E.
Qed.
Lemma wobble_trim_noub : forall samples s a b c limit, dltb (ws_time s) limit = false ->
  noub (wobble_trim (samples ++ [s]) a b c limit).
Proof.
  induction samples as [|x rest IH]; intros s a b c limit K; cbn.
  - rewrite K. discriminate.
  - destruct (dltb (ws_time x) limit); [apply IH; exact K|discriminate].
Qed.
Lemma wobble_noub : forall w pos t,
  (wp_enabled (w_params w) = true -> w_samples (w_state w) <> [] /\ dltb t (dsub t (wp_timeout (w_params w))) = false) ->
  noub (wobble_update w pos t).
Proof.
  intros w pos t K. unfold wobble_update. destruct (wp_enabled _); [|discriminate]. cbn [negb].
  destruct (K eq_refl) as [K1 K2]. destruct (back_some _ K1) as [x ->]. apply noub_bind.
  - apply wobble_trim_noub. exact K2.
  - intros st _. destruct (feqb _ _); discriminate.
Qed.

(** ** The Kalman filter's counter *)
Definition pred_iter (n : Z) (o : option Predictor) : Prop :=
  match o with Some (PKal k) => (kf_iter (k_x k) <= n /\ kf_iter (k_y k) <= n)%Z | _ => True end.
Lemma pred_iter_le : forall n n' o, pred_iter n o -> (n <= n')%Z -> pred_iter n' o.
Proof. intros n n' [[|k]|] H L; cbn in *; lia. Qed.
Lemma kf_update_iter : forall a b k o k', kf_update a b k o = Ret k' -> kf_iter k' = (kf_iter k + 1)%Z.
Proof.
  intros a b k o k' H. unfold kf_update in H. destruct (Z.leb _ _); [discriminate|].
  destruct (Z.eqb _ _); inversion H; reflexivity.
Qed.
Lemma kf_update_noub : forall a b k o, (kf_iter k < INT_MAX)%Z -> noub (kf_update a b k o).
Proof.
  intros a b k o L. unfold kf_update. rewrite (proj2 (Z.leb_gt _ _)) by exact L. destruct (Z.eqb _ _); discriminate.
Qed.
Lemma upd_pred_noub : forall n o pos t, pred_iter n o -> (n < INT_MAX)%Z -> noub (upd_pred o pos t).
Proof.
  intros n [[pp sp l|k]|] pos t H L; try discriminate. cbn in *. apply noub_bind; [|discriminate].
  apply noub_bind; [|discriminate].
  unfold kpred_update. apply noub_bind; [apply kf_update_noub; lia|]. intros x _.
  apply noub_bind; [apply kf_update_noub; lia|discriminate].
Qed.
Lemma upd_pred_iter : forall n o pos t o', pred_iter n o -> upd_pred o pos t = Ret o' -> pred_iter (n + 1) o'.
Proof.
  intros n [[pp sp l|k]|] pos t o' H U; cbn in U.
  - inversion U. exact Logic.I.
  - bind_inv U. unfold obind in E. destruct (kpred_update k pos t) as [k'| |] eqn:KU; try discriminate.
    inversion E; subst. inversion U; subst. unfold kpred_update in KU. bind_inv KU. bind_inv KU. inversion KU; subst.
    cbn in *. apply kf_update_iter in E0. apply kf_update_iter in E1. lia.
  - inversion U. exact Logic.I.
Qed.
Lemma reset_pred_iter : forall n o, (0 <= n)%Z -> pred_iter n (option_map pred_reset o).
Proof. intros n [[|k]|] L; cbn; try exact Logic.I. lia. Qed.
Lemma make_pred_iter : forall n p, (0 <= n)%Z -> pred_iter n (make_predictor p).
Proof. intros n p L. unfold make_predictor. destruct (p_prediction p); cbn; try exact Logic.I. lia. Qed.

(** ** No Kalman predictor, if asked for *)
Variable K : bool.
Definition plainp (o : option Predictor) : Prop :=
  K = true -> match o with Some (PKal _) => False | _ => True end.
Lemma plainp_upd : forall o pos t o', plainp o -> upd_pred o pos t = Ret o' -> plainp o'.
Proof.
  intros [[pp sp l|k]|] pos t o' H U KT; cbn in U; [inversion U; exact Logic.I|destruct (H KT)|inversion U; exact Logic.I].
Qed.
Lemma plainp_reset : forall o, plainp o -> plainp (option_map pred_reset o).
Proof. intros [[|k]|] H; auto. Qed.

(** Calls that keep the modeler out of trouble. *)
Definition wants_kalman (p : StrokeModelParams) : Prop :=
  match p_prediction p with PredKalman _ => True | _ => False end.
Definition sane (c : call) : Prop :=
  match c with
  | CReset p => (sp_max_outputs (p_sampling p) < INT_MAX)%Z /\ (K = true -> ~ wants_kalman p)
  | CPredict _ => K = true
  | _ => True
  end.

Record safe (n : Z) (m : Modeler) : Prop := mkSafe {
  sf_good : good m;
  sf_cons : cons m;
  sf_last : forall l, m_last m = Some l -> validate_input (li_input l) = OkStatus;
  sf_saved : forall l, m_saved_last m = Some l -> validate_input (li_input l) = OkStatus;
  sf_live_w : m_last m <> None -> w_samples (w_state (m_wobble m)) <> [];
  sf_saved_w : m_save_active m = true -> m_saved_last m <> None ->
    w_samples (if w_save_active (m_wobble m) then w_saved (m_wobble m) else w_state (m_wobble m)) <> [];
  sf_iter : pred_iter n (m_predictor m);
  sf_iter_saved : pred_iter n (m_saved_predictor m);
  sf_plain : plainp (m_predictor m);
  sf_plain_saved : plainp (m_saved_predictor m);
  sf_outputs : forall p, m_params m = Some p -> (sp_max_outputs (p_sampling p) < INT_MAX)%Z;
  sf_n : (0 <= n)%Z
}.

Lemma safe0 : safe 0 modeler0.
Proof.
  constructor; cbn; try discriminate; try exact Logic.I; try apply good0; try apply cons0; try lia; try (intros ?; exact Logic.I);
    try (intros; congruence).
Qed.

(** The same, Predict apart. *)
Definition sane_reset (c : call) : Prop :=
  match c with CReset p => (sp_max_outputs (p_sampling p) < INT_MAX)%Z /\ (K = true -> ~ wants_kalman p) | _ => True end.
Lemma sane_sane_reset : forall c, sane c -> sane_reset c.
Proof. intros [] H; try exact Logic.I; exact H. Qed.
Lemma safe_step : forall n m c m' r, safe n m -> sane_reset c -> step fuel m c = Ret (m', r) -> safe (n + 1) m'.
Proof.
  intros n m c m' r [G C LA SL LW SW IT IS PL PS MO NN] SC H.
  pose proof (good_step _ _ _ _ _ G H) as G'. pose proof (cons_step _ _ _ _ _ C H) as C'.
  assert (IT' : pred_iter (n + 1) (m_predictor m)) by (eapply pred_iter_le; [exact IT|lia]).
  assert (IS' : pred_iter (n + 1) (m_saved_predictor m)) by (eapply pred_iter_le; [exact IS|lia]).
  destruct c; cbn in H, SC.
  - unfold reset_params in H. destruct (validate_params p) eqn:V; inversion H; subst; constructor; auto; cbn; try lia;
      try discriminate; try congruence.
    + apply make_pred_iter. lia.
    + intros KT. unfold make_predictor. pose proof (proj2 SC KT) as N. unfold wants_kalman in N.
      destruct (p_prediction p); auto.
    + intros q Q. inversion Q; subst. apply SC.
  - unfold reset_keep in H. destruct (m_params m) eqn:P; inversion H; subst; constructor; auto; cbn; try lia;
      try discriminate; try congruence.
  - destruct (update fuel m i results) as [[[m1 s1] rs1]| |] eqn:U; cbn in H; try discriminate.
    inversion H; subst. apply update_inv in U. destruct U as (out & -> & U).
    destruct U as [st N TR|p sm pred MP VI EV ML SU UP|p last w cc sm e MP VI EV ML IE DL WU SU NS NE
      |p last w cc sm k tip tips pred lm out MP VI EV ML IE DL WU SU NS UA UP MS
      |p last k tip1 tips1 tip2 tips2 sm lm out MP VI EV ML IE DL NS UA ME SU MS].
    + constructor; auto; lia.
    + constructor; auto; cbn; try lia.
      * intros l L. inversion L; subst. exact VI.
      * intros _. discriminate.
      * intros _ _. discriminate.
      * eapply upd_pred_iter; [|exact UP]. apply reset_pred_iter. exact NN.
      * eapply plainp_upd; [|exact UP]. apply plainp_reset. exact PL.
    + assert (NE1 : w_samples (w_state w) <> []) by (eapply wobble_update_nonempty; [exact WU|apply LW; congruence]).
      apply wobble_update_params in WU. destruct WU as (_ & W1 & W2).
      constructor; auto; cbn; try lia; try assumption.
      rewrite W1, W2. intros Q1 Q2. specialize (SW Q1 Q2). destruct (w_save_active (m_wobble m)); assumption.
    + assert (NE1 : w_samples (w_state w) <> []) by (eapply wobble_update_nonempty; [exact WU|apply LW; congruence]).
      apply wobble_update_params in WU. destruct WU as (_ & W1 & W2).
      constructor; auto; cbn; try lia; try assumption.
      * intros l L. inversion L; subst. exact VI.
      * rewrite W1, W2. intros Q1 Q2. specialize (SW Q1 Q2). destruct (w_save_active (m_wobble m)); assumption.
      * eapply upd_pred_iter; [exact IT|exact UP].
      * eapply plainp_upd; [|exact UP]. exact PL.
    + constructor; auto; cbn; try lia; try assumption; discriminate || congruence.
  - destruct (predict fuel m results) as [[[m1 s1] rs1]| |] eqn:U; cbn in H; try discriminate.
    inversion H; subst. apply predict_inv in U. destruct U; constructor; auto; try lia.
  - inversion H; subst. constructor; auto; cbn; try lia; try assumption.
    + destruct (m_predictor m); assumption.
    + destruct (m_predictor m); assumption.
  - inversion H; subst. unfold restore in *. destruct (m_save_active m) eqn:SA; [|constructor; auto; try lia; intros; congruence].
    assert (W : m_saved_last m <> None -> w_samples (w_state (wobble_restore (m_wobble m))) <> []).
    { intros N. specialize (SW eq_refl N). unfold wobble_restore. destruct (w_save_active (m_wobble m)); exact SW. }
    constructor; auto; cbn; try lia; try assumption.
    + intros _ N. specialize (W N). specialize (SW eq_refl N). unfold wobble_restore in *.
      destruct (w_save_active (m_wobble m)) eqn:WA; cbn in *; rewrite ?WA; assumption.
    + destruct (m_saved_predictor m); assumption.
    + destruct (m_saved_predictor m); assumption.
Qed.

(** ** What the arithmetic has to provide *)
Hypothesis steps_ok : forall tip a b p, validate_params p = OkStatus ->
  validate_input a = OkStatus -> validate_input b = OkStatus -> dltb (i_time b) (i_time a) = false ->
  noub (number_of_steps tip a b (p_sampling p) (p_position p)).
Hypothesis timeout_ok : forall p i, validate_params p = OkStatus -> wp_enabled (p_wobble p) = true ->
  validate_input i = OkStatus -> dltb (i_time i) (dsub (i_time i) (wp_timeout (p_wobble p))) = false.

Lemma path_noub : forall tip a b sp pp n, number_of_steps tip a b sp pp = Ret (IOk n) -> (sp_max_outputs sp < INT_MAX)%Z ->
  forall q s x tx y ty, noub (update_along_path q s x tx y ty n).
Proof.
  intros tip a b sp pp n H L q s x tx y ty. assert (n <= sp_max_outputs sp)%Z.
  { unfold number_of_steps in H. destruct (dtoint _) as [z|]; [|discriminate]. cbn [to_int] in H.
    destruct (absolute_angle_to _ _); [|discriminate].
    destruct (dltb _ _).
    - destruct (dtoint _) as [z2|]; [|discriminate]. cbn [to_int] in H.
      destruct (Z.ltb (sp_max_outputs sp) _) eqn:E in H; [discriminate|]. inversion H; subst. apply Z.ltb_ge in E. exact E.
    - destruct (Z.ltb (sp_max_outputs sp) z) eqn:E; [discriminate|]. inversion H; subst. apply Z.ltb_ge in E. exact E. }
  unfold update_along_path. rewrite (proj2 (Z.leb_gt _ _)) by lia. discriminate.
Qed.

Lemma update_noub : forall n m i rs, safe n m -> (n < INT_MAX)%Z -> noub (update fuel m i rs).
Proof.
  intros n m i rs [G C LA SL LW SW IT IS PL PS MO NN] LN. unfold update. destruct (m_params m) as [p|] eqn:MP; [|discriminate].
  destruct (validate_input i) eqn:VI; try discriminate.
  pose proof (g_valid _ G p MP) as VP. specialize (MO p eq_refl).
  assert (KD : i_event i = EDown -> noub (process_down m p i rs)).
  { intros _. unfold process_down. destruct (m_last m) eqn:ML; [discriminate|].
    apply noub_bind; [apply stylus_update_noub; exact (stylus_valid m p G MP)|]. intros sm _.
    apply noub_bind; [|discriminate].
    change (noub (upd_pred (m_predictor m) (i_pos i) (i_time i))) || idtac.
    destruct (m_predictor m) as [pr|]; [|discriminate].
    pose proof (upd_pred_noub n (option_map pred_reset (Some pr)) (i_pos i) (i_time i) (reset_pred_iter n _ NN) LN) as Q.
    exact Q. }
  assert (KM : forall last, m_last m = Some last -> dltb (i_time i) (i_time (li_input last)) = false ->
     noub (process_move fuel m p i rs)).
  { intros last ML DL. unfold process_move. rewrite ML.
    destruct (C p MP) as (C1 & C2 & C3 & C4); [left; congruence|].
    apply noub_bind. { apply wobble_noub. rewrite C1. intros WE. split; [apply LW; congruence|apply timeout_ok; assumption]. }
    intros [w c] _. apply noub_bind; [apply stylus_update_noub; rewrite C3; exact (stylus_valid m p G MP)|]. intros sm SU.
    apply noub_bind; [apply steps_ok; auto|]. intros [k|e] NS; [|discriminate].
    apply noub_bind; [eapply path_noub; eassumption|]. intros [tip tips] _.
    apply noub_bind; [exact (upd_pred_noub n (m_predictor m) c (i_time i) IT LN)|]. intros pr _.
    apply noub_bind; [apply model_stylus_noub|]. intros [lm out] _. discriminate. }
  assert (KU : forall last, m_last m = Some last -> dltb (i_time i) (i_time (li_input last)) = false ->
     noub (process_up fuel m p i rs)).
  { intros last ML DL. unfold process_up. rewrite ML.
    destruct (C p MP) as (C1 & C2 & C3 & C4); [left; congruence|].
    apply noub_bind; [apply steps_ok; auto|]. intros [k|e] NS; [|discriminate].
    apply noub_bind; [eapply path_noub; eassumption|]. intros [tip tips] _.
    destruct (model_end_of_stroke _ _ _ _ _ _) as [tip2 tips2].
    apply noub_bind; [apply stylus_update_noub; rewrite C3; exact (stylus_valid m p G MP)|]. intros sm SU.
    apply noub_bind; [apply model_stylus_noub|]. intros [lm out] _. discriminate. }
  destruct (m_last m) as [last|] eqn:ML.
  - destruct (input_eqb _ _); [discriminate|]. destruct (dltb _ _) eqn:DL; [discriminate|].
    destruct (i_event i); [apply KD; reflexivity|eapply KM; eauto|eapply KU; eauto|discriminate].
  - destruct (i_event i); [apply KD; reflexivity| | |discriminate].
    + unfold process_move. rewrite ML. discriminate.
    + unfold process_up. rewrite ML. discriminate.
Qed.

Lemma predict_noub : forall n m rs, safe n m -> K = true -> noub (predict fuel m rs).
Proof.
  intros n m rs [G C LA SL LW SW IT IS PL PS MO NN] KT. unfold predict. destruct (m_params m); [|discriminate].
  specialize (PL KT). destruct (m_predictor m) as [[pp sp [l|]|k]|]; [| |destruct PL|discriminate];
    (destruct (m_last m); [|discriminate]); cbn [pred_construct];
    (apply noub_bind; [discriminate|]); intros tips _;
    (apply noub_bind; [apply model_stylus_noub|]); intros [lm out] _; discriminate.
Qed.

Lemma run_noub : forall cs n m, safe n m -> Forall sane cs -> (n + Z.of_nat (List.length cs) <= INT_MAX)%Z -> noub (run fuel m cs).
Proof.
  induction cs as [|c cs IH]; intros n m SF F L; [discriminate|]. inversion F; subst. cbn [run]. cbn [List.length] in L.
  apply noub_bind.
  - destruct c; cbn [step].
    + destruct (reset_params m p); discriminate.
    + destruct (reset_keep m); discriminate.
    + apply noub_bind; [eapply update_noub; [exact SF|lia]|]. intros [[m1 s1] rs1] _. discriminate.
    + apply noub_bind; [eapply predict_noub; [exact SF|]|]. { assumption. } intros [[m1 s1] rs1] _. discriminate.
    + discriminate.
    + discriminate.
  - intros [m1 r] E. apply noub_bind; [|intros [m2 rs] _; discriminate].
    apply (IH (n + 1)%Z); [eapply safe_step; [eassumption|apply sane_sane_reset; eassumption|eassumption]|assumption|lia].
Qed.

(** The first call that runs into undefined behaviour is a Predict. *)
Lemma run_ub : forall cs n m k, safe n m -> Forall sane_reset cs -> (n + Z.of_nat (List.length cs) <= INT_MAX)%Z -> run fuel m cs = UB k ->
  exists h1 rs h2 m1 rs1 n1, cs = h1 ++ CPredict rs :: h2 /\ run fuel m h1 = Ret (m1, rs1) /\ safe n1 m1 /\ predict fuel m1 rs = UB k.
Proof.
  induction cs as [|c cs IH]; intros n m k SF F L R; [discriminate R|]. cbn [run] in R. cbn [List.length] in L.
  pose proof (Forall_inv F) as FC. pose proof (Forall_inv_tail F) as FS.
  destruct (step fuel m c) as [[m1 r]|k'|] eqn:E; cbn [obind] in R; [|injection R as ->|discriminate R].
  - destruct (run fuel m1 cs) as [[m2 rs]|k'|] eqn:R2; cbn [obind] in R; [discriminate R|injection R as ->|discriminate R].
    destruct (IH (n + 1)%Z m1 k (safe_step _ _ _ _ _ SF FC E) FS ltac:(lia) R2) as (h1 & q & h2 & m3 & rs3 & n1 & -> & R3 & S3 & P3).
    exists (c :: h1), q, h2, m3, (r :: rs3), n1. split; [reflexivity|]. split; [|auto]. cbn [run]. rewrite E. cbn [obind]. rewrite R3. reflexivity.
  - destruct c; cbn [step] in E.
    + destruct (reset_params m p); discriminate E.
    + destruct (reset_keep m); discriminate E.
    + destruct (update fuel m i results) as [[[m1 s1] rs1]|k'|] eqn:U; cbn [obind] in E; try discriminate E.
      exfalso. apply (update_noub n m i results SF ltac:(lia) k'). exact U.
    + destruct (predict fuel m results) as [[[m1 s1] rs1]|k'|] eqn:U; cbn [obind] in E; try discriminate E. injection E as ->.
      exists [], results, cs, m, [], n. split; [reflexivity|]. split; [reflexivity|]. split; [exact SF|exact U].
    + discriminate E.
    + discriminate E.
Qed.
(** And the only kind is the conversion to int. *)
Lemma predict_ub : forall m rs k, predict fuel m rs = UB k -> m_last m <> None /\ k = UB_float_to_int.
Proof.
  intros m rs k H. unfold predict in H. destruct (m_params m); [|discriminate H]. destruct (m_predictor m) as [pr|]; [|discriminate H].
  destruct (m_last m) as [last|]; [|discriminate H]. split; [discriminate|].
  destruct (pred_construct pr (pm_state (m_pos m))) as [tips|k'|] eqn:E; cbn [obind] in H; [|injection H as ->|discriminate H].
  - exfalso. destruct (model_stylus fuel tips (m_stylus m) (m_loop m) (i_time (li_input last))) as [[lm out]|k'|] eqn:MS; cbn [obind] in H; try discriminate H.
    exact (model_stylus_noub _ _ _ _ _ MS).
  - destruct pr as [pp sp [l|]|kp]; cbn [pred_construct] in E; [discriminate E|discriminate E|]. unfold kpred_predict in E.
    destruct (kpred_estimate kp); [|discriminate E]. destruct (k_last kp); [|discriminate E]. cbv zeta in E. unfold cubic_connector, to_int in E.
    destruct (connector_points _ _ _ _); cbn [obind] in E; [|injection E as <-; reflexivity].
    destruct (kpred_number_of_points _ _ _); [discriminate E|injection E as <-; reflexivity].
Qed.
End NoUB.
