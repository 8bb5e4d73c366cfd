(** * C37, C43: a resting pen (exact arithmetic). *)
From Coq Require Import ZArith Bool List Sorted Reals Lra Lia Psatz.
From Flocq Require Import Core.Raux.
From Verif Require Export Props_Whole.
Import ListNotations.
Open Scope R_scope.

(** ** Specification *)
(** The input is at [q]; the result is at [q], without velocity or acceleration. *)
Definition at_point (q : Vec2) (i : Input) : Prop := i_pos i = q.
Definition resting (q : Vec2) (r : Result) : Prop :=
  r_pos r = q /\ r_vel r = mkVec2 (0 : R) (0 : R) /\ r_acc r = mkVec2 (0 : R) (0 : R).

(** ** The smoother *)
Definition wsample_rest (q : Vec2) (s : WSample) : Prop := ws_pos s = q /\ ws_wpos s = vscale (ws_dur s : R) q.
Definition wrest (q : Vec2) (st : WState) : Prop :=
  Forall (wsample_rest q) (w_samples st) /\ w_wsum st = vscale (w_tsum st : R) q.

Lemma wobble_trim_rest : forall q limit samples wsum dsum tsum st,
  Forall (wsample_rest q) samples -> wsum = vscale (tsum : R) q ->
  wobble_trim (A := real_arith) samples wsum dsum tsum limit = Ret st -> wrest q st.
Proof.
  intros q limit. induction samples as [|s rest IH]; intros wsum dsum tsum st F W H; cbn [wobble_trim] in H; [discriminate H|].
  pose proof (Forall_inv F) as [F1 F2]. pose proof (Forall_inv_tail F) as F3. destruct (dltb _ _).
  - eapply IH; [exact F3| |exact H]. rewrite F2, W. apply vec_eq; unfold vsub, vscale; rsimp; ring.
  - injection H as <-. split; [exact F|exact W].
Qed.
Lemma wobble_rest : forall q w t w' c, wrest q (w_state w) -> wobble_update (A := real_arith) w q t = Ret (w', c) -> wrest q (w_state w') /\ c = q.
Proof.
  intros q w t w' c [H1 H2] H. unfold wobble_update in H.
  destruct (negb (wp_enabled (w_params w))); [injection H as <- <-; split; [split|]; auto|].
  destruct (back (w_samples (w_state w))) as [lst|] eqn:B; [|discriminate H]. cbv zeta in H. bind_inv H. rename x into st.
  assert (WR : wrest q st).
  { eapply wobble_trim_rest; [| |exact E].
    - apply Forall_app. split; [exact H1|]. constructor; [|constructor]. split; reflexivity.
    - rewrite H2. cbn [ws_wpos ws_dur]. apply vec_eq; unfold vadd, vscale; rsimp; ring. }
  destruct (feqb (w_tsum st) f0) eqn:Z; injection H as <- <-; cbn [w_state]; (split; [exact WR|]); [reflexivity|].
  rsimp. apply Reqb_false in Z. destruct WR as [_ WS]. rewrite WS.
  assert (AV : vdiv (A := real_arith) (vscale (w_tsum st : R) q) (w_tsum st) = q); [|etransitivity; [apply (f_equal (fun z => interp_v z q _)); exact AV|apply interp_v_same]].
  apply vec_eq; unfold vdiv, vscale; rsimp; match goal with |- @eq _ ?a ?b => change (@eq R a b) end; field; exact Z.
Qed.

(** ** The tip *)
Definition tip_rest (q : Vec2) (t : TipState) : Prop :=
  t_pos t = q /\ t_vel t = mkVec2 (0 : R) (0 : R) /\ t_acc t = mkVec2 (0 : R) (0 : R).
Lemma tip_update_rest : forall p q s t, tip_rest q s -> tip_rest q (tip_update (A := real_arith) p s q t).
Proof.
  intros p q s t (H1 & H2 & H3). unfold tip_update. rewrite H1, H2.
  assert (AC : vsub (A := real_arith) (vdiv (vsub q q) (pp_spring p)) (vscale (pp_drag p) (mkVec2 (0 : R) (0 : R))) = mkVec2 (0 : R) (0 : R)).
  { apply vec_eq; unfold vsub, vdiv, vscale, Rdiv; rsimp; unfold Rdiv; ring. }
  rewrite AC. repeat split; cbn [t_pos t_vel t_acc]; apply vec_eq; unfold vadd, vscale; rsimp; ring.
Qed.
Lemma path_rest : forall p q st et n k i s sf out, tip_rest q s ->
  path_loop (A := real_arith) p s q st q et n i k = (sf, out) -> tip_rest q sf /\ Forall (tip_rest q) out.
Proof.
  intros p q st et n. induction k as [|k IH]; intros i s sf out T H; cbn [path_loop] in H.
  - injection H as <- <-. auto.
  - rewrite interp_v_same in H. destruct (path_loop _ _ _ _ _ _ _ _ _) as [sf' out'] eqn:E in H. injection H as <- <-.
    apply IH in E; [|apply tip_update_rest; exact T]. destruct E as [E1 E2]. split; [exact E1|].
    constructor; [|exact E2]. apply tip_update_rest. exact T.
Qed.
Lemma along_rest : forall p q s st et n tip tips, tip_rest q s ->
  update_along_path (A := real_arith) p s q st q et n = Ret (tip, tips) -> tip_rest q tip /\ Forall (tip_rest q) tips.
Proof. intros p q s st et n tip tips T H. unfold update_along_path in H. destruct (Z.leb INT_MAX n); [discriminate H|]. apply ret_inj in H. eapply path_rest; eassumption. Qed.
Lemma end_rest : forall p q stop k d s sf out, tip_rest q s ->
  model_end_of_stroke (A := real_arith) p s q d k stop = (sf, out) -> tip_rest q sf /\ Forall (tip_rest q) out.
Proof.
  intros p q stop. induction k as [|k IH]; intros d s sf out T H; cbn [model_end_of_stroke] in H.
  - injection H as <- <-. auto.
  - pose proof (tip_update_rest p q s (dadd (t_time s) d) T) as T'. set (c := tip_update _ _ _ _) in *. clearbody c.
    destruct (fltb _ stop); [injection H as <- <-; auto|].
    destruct (fltb _ f1); [exact (IH _ _ _ _ T H)|].
    destruct (fltb _ stop); [injection H as <- <-; auto|].
    destruct (model_end_of_stroke _ _ _ _ _ _) as [sf' out'] eqn:E. injection H as <- <-.
    apply IH in E; [|exact T']. destruct E. auto.
Qed.

(** ** The stylus history *)
Lemma stylus_trim_in : forall p raw raw' x, stylus_trim (A := real_arith) p raw = Ret raw' -> In x raw' -> In x raw.
Proof.
  intros p. induction raw as [|a rest IH]; intros raw' x H I1; cbn [stylus_trim] in H; bind_inv H; destruct x0; try discriminate H.
  - injection H as <-. exact I1.
  - right. eapply IH; eassumption.
  - injection H as <-. exact I1.
Qed.
Lemma stylus_rest : forall q sm t pr ti o sm', Forall (resting q) (s_raw (sm_state sm)) ->
  stylus_update (A := real_arith) sm q t pr ti o = Ret sm' -> Forall (resting q) (s_raw (sm_state sm')).
Proof.
  intros q sm t pr ti o sm' F H. unfold stylus_update in H.
  destruct (negb _ && _ && _ && _); [injection H as <-; constructor|].
  match type of H with (let '(vel, acc) := ?e in _) = _ => assert (V : e = (mkVec2 (0 : R) (0 : R), mkVec2 (0 : R) (0 : R))) end.
  { destruct (back (s_raw (sm_state sm))) as [b|] eqn:B; [|reflexivity]. apply back_in in B. rewrite Forall_forall in F.
    destruct (F b B) as (B1 & B2 & _). destruct (negb _); [|reflexivity]. rewrite B1, B2.
    assert (E : vdiv (A := real_arith) (vsub q q) (d2f (dsub t (r_time b))) = mkVec2 (0 : R) (0 : R)).
    { apply vec_eq; unfold vsub, vdiv; rsimp; unfold Rdiv; ring. }
    rewrite E. f_equal. apply vec_eq; unfold vsub, vdiv; rsimp; unfold Rdiv; ring. }
  rewrite V in H. clear V. bind_inv H. injection H as <-. cbn [sm_state s_raw]. rewrite Forall_forall in *.
  intros r I1. apply (stylus_trim_in _ _ _ _ E) in I1. apply in_app_or in I1. destruct I1 as [I1|[<-|[]]]; [auto|]. repeat split.
Qed.

Lemma interp_rest : forall fuel q a b v r, resting q a -> resting q b -> interp_result (A := real_arith) fuel a b v = Ret r -> resting q r.
Proof.
  intros fuel q a b v r (A1 & A2 & A3) (B1 & B2 & B3) H. apply interp_result_inv in H. destruct H as (H1 & H2 & H3 & _).
  unfold resting. rewrite H1, H2, H3, A1, A2, A3, B1, B2, B3, !interp_v_same. auto.
Qed.
Lemma query_rest : forall fuel q sm tip n r, Forall (resting q) (s_raw (sm_state sm)) -> s_raw (sm_state sm) <> [] ->
  stylus_query (A := real_arith) fuel sm tip n = Ret r -> resting q r.
Proof.
  intros fuel q sm tip n r F NE H. rewrite Forall_forall in F.
  destruct (query_eq fuel sm tip n) as [[E _]|(_ & o & E & O)]; [contradiction|].
  rewrite E in H. destruct o as [x| |] eqn:EO; cbn [obind] in H; try discriminate H. apply ret_inj in H. subst r. change (resting q x).
  destruct O as [(p & QP & E0)|(_ & r1 & R1 & E0)]; symmetry in E0.
  - apply query_projection_in in QP. destruct QP as [Q1 Q2]. eapply interp_rest; [apply F; exact Q1|apply F; exact Q2|exact E0].
  - apply ret_inj in E0. subst x. apply F. exact R1.
Qed.

(** If nothing is remembered, mitigation is off. *)
Definition recall (sm : Stylus (A := real_arith)) (lm : LoopModeler) : Prop :=
  s_raw (sm_state sm) <> [] \/ lp_enabled (l_params lm) = false.

Lemma model_stylus_loop_rest : forall fuel q sm, Forall (resting q) (s_raw (sm_state sm)) ->
  forall tips lm v pt lm' out, Forall (tip_rest q) tips -> (s_raw (sm_state sm) <> [] \/ lp_enabled (l_params lm) = false /\ v = 1) ->
  model_stylus_loop (A := real_arith) fuel tips sm lm v pt = Ret (lm', out) -> Forall (resting q) out.
Proof.
  intros fuel q sm F. induction tips as [|tip rest IH]; intros lm v pt lm' out T C H; cbn [model_stylus_loop] in H.
  - injection H as _ <-. constructor.
  - pose proof (Forall_inv T) as (T1 & T2 & T3). pose proof (Forall_inv_tail T) as T4. bind_inv H. bind_inv H. rename x into r0, x0 into r.
    destruct (loop_update lm (r_vel r) (t_time tip)) as [l1 v1] eqn:LU. bind_inv H. destruct x as [l2 o2]. injection H as _ <-.
    constructor.
    + destruct C as [C|[_ ->]].
      * assert (R0 : resting q r0) by (eapply query_rest; [exact F|exact C|exact E]).
        eapply interp_rest; [exact R0| |exact E0]. unfold make_result. repeat split; cbn [r_vel r_acc]; assumption.
      * apply interp_result_inv in E0. destruct E0 as (H1 & H2 & H3 & _). unfold resting.
        rewrite H1, H2, H3, !interp_v_1. cbn [make_result r_pos r_vel r_acc]. auto.
    + eapply IH; [exact T4| |exact E1]. destruct C as [C|[C _]]; [left; exact C|right].
      destruct (loop_update_off _ _ _ _ _ C LU) as [-> ->]. split; [exact C|reflexivity].
Qed.
Lemma model_stylus_rest : forall fuel q sm tips lm pt lm' out, Forall (resting q) (s_raw (sm_state sm)) -> Forall (tip_rest q) tips -> recall sm lm ->
  model_stylus (A := real_arith) fuel tips sm lm pt = Ret (lm', out) -> Forall (resting q) out.
Proof.
  intros fuel q sm tips lm pt lm' out F T C H. unfold model_stylus in H. eapply model_stylus_loop_rest; [exact F|exact T| |exact H].
  destruct C as [C|C]; [left; exact C|right]. split; [exact C|]. unfold loop_get. rewrite loop_value_off by exact C. reflexivity.
Qed.

(** ** The predictors *)
Definition kf_rest (x : R) (k : KFilter (A := real_arith)) : Prop :=
  (kf_iter k = 0%Z /\ kf_state k = vec4_zero) \/ kf_state k = mkVec4 (x : R) (0 : R) (0 : R) (0 : R).
Lemma kf_update_rest : forall x pn mn k k', kf_rest x k -> kf_update (A := real_arith) pn mn k x = Ret k' ->
  kf_state k' = mkVec4 (x : R) (0 : R) (0 : R) (0 : R).
Proof.
  intros x pn mn k k' KR H. unfold kf_update in H. destruct (Z.leb INT_MAX (kf_iter k)); [discriminate H|].
  destruct (Z.eqb_spec (kf_iter k) 0) as [I0|I0].
  - injection H as <-. cbn [kf_state]. destruct KR as [[_ ->]| ->]; reflexivity.
  - destruct KR as [[K _]|KS]; [contradiction|]. injection H as <-. unfold kf_correct. cbn [kf_state].
    unfold kf_predict. cbn [kf_state kf_cov]. rewrite KS.
    assert (E : mat4_vec (A := real_arith) kf_transition (mkVec4 (x : R) (0 : R) (0 : R) (0 : R)) = mkVec4 (x : R) (0 : R) (0 : R) (0 : R)).
    { unfold mat4_vec, dot4, kf_transition. cbn [q0 q1 q2 q3 row0 row1 row2 row3]. rsimp. f_equal; rring. }
    rewrite E. assert (Y : dsub x (dot4 (A := real_arith) kf_measure (mkVec4 (x : R) (0 : R) (0 : R) (0 : R))) = (0 : R)).
    { unfold dot4, kf_measure. cbn [q0 q1 q2 q3]. rsimp. rring. }
    rewrite Y. match goal with |- vec4_add _ (vec4_scale ?g _) = _ => set (gn := g); clearbody gn end.
    unfold vec4_add, vec4_scale, vec4_map, vec4_map2. cbn [q0 q1 q2 q3]. rsimp. f_equal; rring.
Qed.

Definition pred_rest (q : Vec2) (o : option (Predictor (A := real_arith))) : Prop :=
  match o with
  | None => True
  | Some (PStrokeEnd _ _ l) => match l with Some c => c = q | None => True end
  | Some (PKal k) => kf_rest (vx q) (k_x k) /\ kf_rest (vy q) (k_y k) /\
      match k_last k with Some c => c = q /\ kf_state (k_x k) = mkVec4 (vx q : R) (0 : R) (0 : R) (0 : R) /\ kf_state (k_y k) = mkVec4 (vy q : R) (0 : R) (0 : R) (0 : R)
      | None => True end
  end.
Lemma pred_reset_rest : forall q o, pred_rest q (option_map pred_reset o).
Proof.
  intros q [[pp sp l|k]|]; cbn; try exact I. split; [left|split; [left|exact I]]; split; reflexivity.
Qed.
Lemma upd_pred_rest : forall q o t o', pred_rest q o -> upd_pred (A := real_arith) o q t = Ret o' -> pred_rest q o'.
Proof.
  intros q [[pp sp l|k]|] t o' P H; cbn [upd_pred pred_update obind] in H.
  - injection H as <-. reflexivity.
  - bind_inv H. injection H as <-. bind_inv E. injection E as <-. unfold kpred_update in E0. cbv zeta in E0. bind_inv E0. bind_inv E0. injection E0 as <-.
    cbn [pred_rest k_x k_y k_last] in *. destruct P as (P1 & P2 & _).
    apply (kf_update_rest _ _ _ _ _ P1) in E. apply (kf_update_rest _ _ _ _ _ P2) in E1.
    split; [right; exact E|]. split; [right; exact E1|]. auto.
  - injection H as <-. exact I.
Qed.

(** The Kalman predictor sees no movement: one result to catch up, none to extend. *)
Lemma norm_zero : magnitude (A := real_arith) (mkVec2 (0 : R) (0 : R)) = (0 : R).
Proof. unfold magnitude. rsimp. cbn [vx vy]. rewrite Rmult_0_l, Rplus_0_l. apply sqrt_0. Qed.
Lemma distance_same : forall q : Vec2, distance (A := real_arith) q q = (0 : R).
Proof.
  intros q. unfold distance. rewrite <- norm_zero. f_equal. apply vec_eq; unfold vsub; rsimp; ring.
Qed.
Lemma kalman_rest : forall p kp k q tip tips, validate_params p = OkStatus -> p_prediction p = PredKalman kp -> k_params k = kp ->
  pred_rest q (Some (PKal k)) -> tip_rest q tip -> kpred_predict (A := real_arith) k tip = Ret tips ->
  (tips = [] /\ (kpred_stable k = false \/ k_times k = [] \/ k_last k = None)) \/
  (kpred_stable k = true /\ exists t, tips = [t] /\ tip_rest q t).
Proof.
  intros p kp k q tip tips V PK KP PR (T1 & T2 & T3) H. destruct (valid_kalman_R p kp V PK) as (_ & _ & _ & _ & CU & IV & _ & _ & MS & _).
  unfold kpred_predict in H. destruct (kpred_estimate k) as [est|] eqn:ES.
  2:{ apply ret_inj in H. subst tips. left. split; [reflexivity|]. unfold kpred_estimate in ES.
      destruct (kpred_stable k); [right; left|left; reflexivity]. destruct (k_times k); [reflexivity|discriminate ES]. }
  destruct (k_last k) as [c|] eqn:KL; [|apply ret_inj in H; subst tips; left; split; [reflexivity|right; right; reflexivity]].
  assert (SB : kpred_stable k = true) by (unfold kpred_estimate in ES; destruct (kpred_stable k); [reflexivity|discriminate ES]).
  cbn [pred_rest] in PR. rewrite KL in PR. destruct PR as (_ & _ & -> & KX & KY).
  assert (EE : est = mkKEst q (mkVec2 (0 : R) (0 : R)) (mkVec2 (0 : R) (0 : R)) (mkVec2 (0 : R) (0 : R))).
  { unfold kpred_estimate in ES. destruct (if kpred_stable k then k_times k else []) as [|f ts]; [discriminate ES|].
    rewrite KX, KY in ES. cbn [q0 q1 q2 q3] in ES. apply some_inj in ES. subst est. f_equal; apply vec_eq; unfold vdiv, vscale_assign; rsimp; try reflexivity; unfold Rdiv; ring. }
  subst est. clear ES. bind_inv H. rename x into con.
  assert (CP : connector_points tip (mkKEst q (mkVec2 (0 : R) (0 : R)) (mkVec2 (0 : R) (0 : R)) (mkVec2 (0 : R) (0 : R))) (k_params k) (ddiv (dofZ 1) (sp_rate (k_sampling k))) = Some 1%Z).
  { unfold connector_points. cbn [ke_pos ke_vel]. rewrite T1, T2, distance_same, norm_zero, KP. unfold std_fmin, std_fmaxs, std_fmax. rsimp.
    rewrite (proj2 (Rltb_false 0 0)) by lra. rewrite (proj2 (Rltb_true 0 _) CU).
    rewrite (proj2 (Rltb_false _ 0)) by (apply IZR_le; discriminate).
    replace (0 / kp_catchup kp / (1 / sp_rate (k_sampling k))) with 0 by (unfold Rdiv; ring).
    rewrite Zceil_IZR. rewrite (proj2 (Rltb_true 0 1)) by lra. unfold R_to_int. rewrite Ztrunc_IZR. reflexivity. }
  unfold cubic_connector in E. rewrite CP in E. cbn [to_int] in E. apply ret_inj in E. change (Z.to_nat 1) with 1%nat in E. cbn [seq map] in E.
  match type of E with [?t] = _ => assert (TR : tip_rest q t); [|set (t1 := t) in *; clearbody t1] end.
  { unfold connector_tip, connector_a, connector_b. cbn [ke_pos ke_vel]. rewrite T1, T2.
    repeat split; cbn [t_pos t_vel t_acc]; apply vec_eq; unfold vadd, vsub, vscale, vdiv; rsimp; unfold Rdiv; ring. }
  subst con. right. split; [exact SB|]. exists t1. split; [|exact TR].
  assert (CF : kpred_confidence k q (mkKEst q (mkVec2 (0 : R) (0 : R)) (mkVec2 (0 : R) (0 : R)) (mkVec2 (0 : R) (0 : R))) = (0 : R)).
  { unfold kpred_confidence. cbn [ke_pos ke_vel].
    assert (EC : evaluate_cubic (A := real_arith) (mkKEst q (mkVec2 (0 : R) (0 : R)) (mkVec2 (0 : R) (0 : R)) (mkVec2 (0 : R) (0 : R))) (kp_interval (k_params k)) =
      mkKEst q (mkVec2 (0 : R) (0 : R)) (mkVec2 (0 : R) (0 : R)) (mkVec2 (0 : R) (0 : R))).
    { unfold evaluate_cubic. cbn [ke_pos ke_vel ke_acc ke_jerk]. f_equal; apply vec_eq; unfold vadd, vscale, vdiv; rsimp; unfold Rdiv; ring. }
    rewrite EC. cbn [ke_pos ke_vel]. rewrite distance_same.
    assert (N0 : normalize01 (A := real_arith) (cp_min_speed (kp_conf (k_params k))) (cp_max_speed (kp_conf (k_params k))) (fdiv (0 : R) (d2f (kp_interval (k_params k)))) = (0 : R)).
    { rewrite KP. unfold normalize01. rsimp. replace (0 / kp_interval kp) with 0 by (unfold Rdiv; ring).
      destruct (Reqb _ _) eqn:Q; [rewrite (proj2 (Rltb_false _ _)) by apply MS; reflexivity|]. apply Reqb_false in Q.
      unfold clamp01, std_clamp. rsimp. set (lo := cp_min_speed _) in *. set (hi := cp_max_speed _) in *. clearbody lo hi.
      assert (X : (0 - lo) / (hi - lo) <= 0).
      { unfold Rdiv. assert (0 < / (hi - lo)) by (apply Rinv_0_lt_compat; destruct MS; lra). destruct MS. nra. }
      destruct (Rltb _ 0) eqn:L1; [reflexivity|]. apply Rltb_false in L1. rewrite (proj2 (Rltb_false 1 _)) by lra. lra. }
    rewrite N0. rsimp. ring. }
  unfold kpred_number_of_points in H. rewrite CF in H. unfold std_fmax in H. rsimp. rewrite Rmult_0_r, Zceil_IZR in H.
  rewrite (proj2 (Rltb_false 0 0)) in H by lra. unfold R_to_int in H. rewrite Ztrunc_IZR in H. cbn in H. apply ret_inj in H. symmetry. exact H.
Qed.

(** ** The invariant *)
Record at_rest (q : Vec2) (p : StrokeModelParams (A := real_arith)) (es : list entry) (c : core) : Prop := mkAR {
  ar_w : wrest q (co_w c);
  ar_tip : tip_rest q (co_tip c);
  ar_raw : Forall (resting q) (s_raw (co_s c));
  ar_some : sy_normal (p_stylus p) = true -> s_raw (co_s c) <> [];
  ar_pred : pred_rest q (co_pred c);
  ar_last : li_corrected (co_last c) = q;
  ar_es : Forall (fun e => Forall (resting q) (snd e)) es
}.

Lemma recall_live : forall m p sm c t pr ti o, good m -> m_params m = Some p -> comp_params p m ->
  stylus_update (A := real_arith) (m_stylus m) c t pr ti o = Ret sm -> recall sm (m_loop m).
Proof.
  intros m p sm c t pr ti o G MP (C1 & C2 & C3 & C4) SU. unfold recall. rewrite C4.
  destruct (lp_enabled (pp_loop (p_position p))) eqn:E; [left|right; reflexivity].
  eapply stylus_update_nonempty; [| |exact SU]; rewrite C3; [exact (stylus_valid m p G MP)|].
  apply mitigation_normal; [exact (g_valid _ G p MP)|exact E].
Qed.

Lemma rest_state : forall fuel q hist s es seen, after_seen (A := real_arith) fuel hist s es seen ->
  exists m rs, run fuel modeler0 hist = Ret (m, rs) /\ tracks s m /\ good m /\ cons m /\
    (forall p last, m_params m = Some p -> m_last m = Some last -> Forall (at_point q) seen -> at_rest q p es (core_of p m last)).
Proof.
  intros fuel q hist s es seen AS.
  refine (after_seen_state fuel (fun _ => True) (fun p es seen c => Forall (at_point q) seen -> at_rest q p es c) _ _ _ hist s es seen AS (call_in_true _)).
  - intros p m i m' out _ MP V G U EV F. pose proof (Forall_inv F) as Q. unfold at_point in Q.
    destruct (upd_down fuel m i m' out U EV) as (p' & sm & pred & MQ & _ & _ & SU & UP & -> & ->). assert (p' = p) by congruence. subst p'. clear MQ.
    constructor; cbn [core_of co_w co_tip co_s co_pred co_last m_wobble m_pos m_stylus m_predictor li_corrected wobble_reset w_state pos_reset pm_state].
    + split; cbn [w_samples w_wsum w_tsum].
      * constructor; [|constructor]. split; [exact Q|]. cbn [ws_wpos ws_dur]. apply vec_eq; unfold vscale; rsimp; unfold vzero; rsimp; ring.
      * apply vec_eq; unfold vscale; rsimp; unfold vzero; rsimp; ring.
    + repeat split. exact Q.
    + rewrite Q in SU. eapply stylus_rest; [|exact SU]. constructor.
    + intros N. eapply stylus_update_nonempty; [| |exact SU]; [exact (stylus_valid m p G MP)|exact N].
    + destruct (prediction_on p); [|exact I]. rewrite Q in UP. eapply upd_pred_rest; [apply pred_reset_rest|exact UP].
    + exact Q.
    + constructor; [|constructor]. constructor; [|constructor]. unfold down_result. repeat split. exact Q.
  - intros p m i m' out es0 seen0 lst last' _ MP V G CP ML J U EV ML' F.
    apply Forall_app in F. destruct F as [F1 F2]. specialize (J F1). pose proof (Forall_inv F2) as Q. unfold at_point in Q. destruct J as [J1 J2 J3 J4 J5 J6 J7].
    destruct (upd_move fuel m i m' out U EV) as (p' & last0 & w & c & sm & n & tip & tips & pred & lm & MQ & _ & ML0 & DL & WU & SU & NS & UA & UP & MS & ->).
    assert (p' = p) by congruence. subst p'. clear MQ. assert (last0 = lst) by congruence. subst last0. cbn in ML'. apply some_inj in ML'. subst last'.
    pose proof (recall_live _ _ _ _ _ _ _ _ G MP CP SU) as RC.
    cbn [core_of co_w co_tip co_s co_pred co_last] in *. rewrite Q in WU. destruct (wobble_rest _ _ _ _ _ J1 WU) as [W1 ->].
    rewrite J6 in UA. destruct (along_rest _ _ _ _ _ _ _ _ J2 UA) as [T1 T2]. pose proof (stylus_rest _ _ _ _ _ _ _ J3 SU) as SR.
    constructor; cbn [core_of co_w co_tip co_s co_pred co_last m_wobble m_pos m_stylus m_predictor li_corrected pos_with_state pm_state]; auto.
    + intros N. destruct CP as (_ & _ & C3 & _). eapply stylus_update_nonempty; [| |exact SU]; rewrite C3; [exact (stylus_valid m p G MP)|exact N].
    + destruct (prediction_on p); [|exact I]. eapply upd_pred_rest; [exact J5|exact UP].
    + apply Forall_app. split; [exact J7|]. constructor; [|constructor]. cbn [snd]. eapply model_stylus_rest; [exact SR|exact T2|exact RC|exact MS].
  - intros p m i m' out es0 seen0 lst e _ MP V G CP ML J U NE F. inversion U; subst; try congruence.
    + rewrite H0 in F. auto.
    + match goal with HN : number_of_steps _ _ _ _ _ = _ |- _ => rewrite (number_of_steps_traced _ _ _ _ _ _ i H1 HN) in F end.
      apply Forall_app in F. destruct F as [F1 F2]. destruct (J F1) as [J1 J2 J3 J4 J5 J6 J7]. pose proof (Forall_inv F2) as Q. unfold at_point in Q.
      match goal with HW : wobble_update _ _ _ = _ |- _ => rewrite Q in HW; cbn [core_of co_w] in J1; destruct (wobble_rest _ _ _ _ _ J1 HW) as [W1 ->] end.
      match goal with HS : stylus_update _ _ _ _ _ _ = _ |- _ => rename HS into SU end.
      constructor; cbn [core_of co_w co_tip co_s co_pred co_last m_wobble m_pos m_stylus m_predictor] in *; auto.
      * eapply stylus_rest; [exact J3|exact SU].
      * intros N. destruct CP as (_ & _ & C3 & _). eapply stylus_update_nonempty; [| |exact SU]; rewrite C3; [exact (stylus_valid m p G MP)|exact N].
Qed.

(** ** C37 *)
(** As long as all inputs of the stroke (the rejected Moves that leave a trace
    included) are at [q], every result is at [q] and at rest: those so far, and
    those of the next Update and the next Predict.  Smoothing, mitigation and the
    projection mode do not matter. *)
Theorem C37_resting_results : forall (A := real_arith) fuel hist s es seen q,
  after_seen fuel hist s es seen -> in_stroke s = true -> Forall (at_point q) seen ->
  Forall (fun e => Forall (resting q) (snd e)) es.
Proof.
  intros A fuel hist s es seen q AS IS F. subst A. destruct (rest_state fuel q hist s es seen AS) as (m & rs & R & (T1 & T2 & _) & G & C & J).
  unfold in_stroke in IS. rewrite T2 in IS. destruct (m_last m) as [last|] eqn:ML; [|discriminate IS].
  destruct (m_params m) as [p|] eqn:MP; [|destruct (g_none _ G MP) as (_ & _ & K & _); congruence].
  apply (J p last eq_refl eq_refl F).
Qed.

Theorem C37_resting_update : forall (A := real_arith) fuel hist s es seen q i rs out,
  after_seen fuel hist s es seen -> (in_stroke s = true -> Forall (at_point q) seen) -> at_point q i ->
  answers fuel hist [CUpdate i rs] = Ret [RResults OkStatus (rs ++ out)] -> Forall (resting q) out.
Proof.
  intros A fuel hist s es seen q i rs out AS F Q AN. subst A. unfold at_point in Q.
  assert (AF : after fuel hist s) by (destruct AS as (ma & rsa & Ra & Pa & _); exists ma, rsa; auto).
  destruct (rest_state fuel q hist s es seen AS) as (m0 & rs0 & R0 & (T1 & T2 & _) & G & C & J).
  destruct (accepted_update _ _ _ _ _ _ _ AF AN) as (m & r0 & m' & out' & R & _ & _ & _ & EQ & U & _).
  rewrite R0 in R. injection R as <- <-. apply app_inv_head in EQ. subst out'.
  destruct (i_event i) eqn:EV.
  - destruct (upd_down fuel m0 i m' out U EV) as (p & sm & pred & MP & _ & _ & _ & _ & -> & _).
    constructor; [|constructor]. unfold down_result. repeat split. exact Q.
  - destruct (upd_move fuel m0 i m' out U EV) as (p & lst & w & c & sm & n & tip & tips & pred & lm & MP & _ & ML & DL & WU & SU & NS & UA & UP & MS & _).
    assert (IS : in_stroke s = true) by (unfold in_stroke; rewrite T2, ML; reflexivity). specialize (F IS).
    pose proof (C p MP ltac:(left; congruence)) as CP. destruct (J p lst MP ML F) as [J1 J2 J3 J4 J5 J6 J7].
    pose proof (recall_live _ _ _ _ _ _ _ _ G MP CP SU) as RC.
    cbn [core_of co_w co_tip co_s co_pred co_last] in *. rewrite Q in WU. destruct (wobble_rest _ _ _ _ _ J1 WU) as [W1 ->].
    rewrite J6 in UA. destruct (along_rest _ _ _ _ _ _ _ _ J2 UA) as [K1 K2]. pose proof (stylus_rest _ _ _ _ _ _ _ J3 SU) as SR.
    eapply model_stylus_rest; [exact SR|exact K2|exact RC|exact MS].
  - destruct (upd_up fuel m0 i m' out U EV) as (p & lst & n & tip1 & tips1 & tip2 & tips2 & sm & lm & MP & _ & ML & DL & NS & UA & ME & SU & MS & _).
    assert (IS : in_stroke s = true) by (unfold in_stroke; rewrite T2, ML; reflexivity). specialize (F IS).
    pose proof (C p MP ltac:(left; congruence)) as CP. destruct (J p lst MP ML F) as [J1 J2 J3 J4 J5 J6 J7].
    pose proof (recall_live _ _ _ _ _ _ _ _ G MP CP SU) as RC.
    cbn [core_of co_w co_tip co_s co_pred co_last] in *. rewrite Q in UA, SU, ME.
    rewrite J6 in UA. destruct (along_rest _ _ _ _ _ _ _ _ J2 UA) as [K1 K2]. pose proof (stylus_rest _ _ _ _ _ _ _ J3 SU) as SR.
    destruct (end_rest _ _ _ _ _ _ _ _ K1 ME) as [K3 K4].
    eapply model_stylus_rest; [exact SR| |exact RC|exact MS].
    destruct (tips1 ++ tips2) as [|x l] eqn:E; [constructor; [exact K3|constructor]|]. rewrite <- E. apply Forall_app. split; assumption.
  - destruct (upd_other fuel m0 i m' out z U EV).
Qed.

Lemma rest_recall : forall m p last q es, good m -> cons m -> m_params m = Some p -> m_last m = Some last ->
  at_rest q p es (core_of p m last) -> recall (m_stylus m) (m_loop m).
Proof.
  intros m p last q es G C MP ML J. destruct (C p MP ltac:(left; congruence)) as (_ & _ & _ & C4). unfold recall. rewrite C4.
  destruct (lp_enabled (pp_loop (p_position p))) eqn:E; [left|right; reflexivity].
  apply (ar_some _ _ _ _ J). apply mitigation_normal; [exact (g_valid _ G p MP)|exact E].
Qed.

Theorem C37_resting_prediction : forall (A := real_arith) fuel hist s p es seen q rs out,
  after_seen fuel hist s es seen -> ps_params s = Some p -> p_prediction p = PredStrokeEnd -> Forall (at_point q) seen ->
  answers fuel hist [CPredict rs] = Ret [RResults OkStatus out] -> Forall (resting q) out.
Proof.
  intros A fuel hist s p es seen q rs out AS P PS F AN. subst A.
  assert (AF : after fuel hist s) by (destruct AS as (ma & rsa & Ra & Pa & _); exists ma, rsa; auto).
  destruct (rest_state fuel q hist s es seen AS) as (m & rs0 & R0 & (T1 & T2 & _) & G & C & J).
  destruct (remembered_state _ _ _ _ _ AS) as (m1 & rs1 & R1 & _ & _ & _ & RM). rewrite R0 in R1. injection R1 as <- <-.
  destruct (accepted_predict _ _ _ _ _ _ AF AN) as (m1 & r0 & m' & R & _ & _ & _ & U). rewrite R0 in R. injection R as <- <-.
  destruct (prd_ok fuel m m' out U) as (p' & pr & last0 & tips & lm & MQ & MPR & ML & PC & MS & _).
  assert (p' = p) by congruence. subst p'. pose proof (J p last0 MQ ML F) as JJ. pose proof (rest_recall _ _ _ _ _ G C MQ ML JJ) as RC.
  destruct (RM p last0 MQ ML) as (cs & ws & [H1 H2 H3 H4 H5 H6]).
  assert (ON : prediction_on p = true) by (unfold prediction_on; rewrite PS; reflexivity). specialize (H6 ON).
  destruct JJ as [J1 J2 J3 J4 J5 J6 J7]. cbn [core_of co_w co_s co_last co_pred co_tip] in *. rewrite ON, MPR in *.
  destruct (predicting_end _ _ _ PS H6) as (o & EO). apply some_inj in EO. subst pr.
  eapply model_stylus_rest; [exact J3| |exact RC|exact MS].
  cbn [pred_construct] in PC. destruct o as [pos|]; apply ret_inj in PC; subst tips; [|constructor].
  destruct (model_end_of_stroke _ _ _ _ _ _) as [t ts] eqn:ME. cbn [snd]. cbn [pred_rest] in J5. subst pos.
  eapply end_rest; [exact J2|exact ME].
Qed.

(** ** C43 *)
(** The textbook filter, fed with the same value again and again. *)
Lemma kalman_still : forall q r x zs, Forall (fun z => z = x) zs -> zs <> [] ->
  mean (kalman q r zs) 0 = x /\ mean (kalman q r zs) 1 = 0 /\ mean (kalman q r zs) 2 = 0 /\ mean (kalman q r zs) 3 = 0.
Proof.
  intros q r x [|z zs] F N; [congruence|]. clear N. pose proof (Forall_inv F) as E. cbn beta in E. subst z. apply Forall_inv_tail in F. cbn [kalman].
  assert (K : forall zs g, Forall (fun z => z = x) zs -> mean g 0%nat = x /\ mean g 1%nat = 0 /\ mean g 2%nat = 0 /\ mean g 3%nat = 0 ->
    let h := fold_left (fun g z => observe r (propagate q g) z) zs g in
    mean h 0%nat = x /\ mean h 1%nat = 0 /\ mean h 2%nat = 0 /\ mean h 3%nat = 0).
  { clear zs F. induction zs as [|z zs IH]; intros g F H; [exact H|]. cbn [fold_left]. pose proof (Forall_inv F) as E. cbn beta in E. subst z.
    apply IH; [exact (Forall_inv_tail F)|]. destruct H as (H0 & H1 & H2 & H3).
    assert (M : forall k, mean (propagate q g) k = taylor k 0 * x).
    { intros k. unfold propagate, sum4. cbn [mean]. rewrite H0, H1, H2, H3. ring. }
    assert (P : forall k, mean (observe r (propagate q g) x) k = taylor k 0 * x).
    { intros k. unfold observe. cbn [mean]. rewrite !M. unfold taylor. cbn. lra. }
    rewrite !P. unfold taylor. cbn. repeat split; lra. }
  apply K; [exact F|]. cbn. auto.
Qed.

(** Hence its estimate of a resting pen; [ts] are the times that give the filter its
    unit of time: if they were all the same, the code would divide 0 by 0. *)
Theorem C43_estimate_of_resting_pen : forall kp pts q,
  let ts := most_recent (kp_max_times kp) (map (fun a : point => i_time (fst a)) pts) in
  Forall (fun a : point => snd a = q) pts -> pts <> [] -> hd 0 ts <> last ts 0 ->
  estimate kp pts = mkKEst q (mkVec2 (0 : R) (0 : R)) (mkVec2 (0 : R) (0 : R)) (mkVec2 (0 : R) (0 : R)).
Proof.
  intros kp pts q ts F N _.
  assert (X : forall f : Vec2 -> R, let g := kalman (kp_process kp) (kp_measure kp) (map (fun a : point => f (snd a)) pts) in
    mean g 0 = f q /\ mean g 1 = 0 /\ mean g 2 = 0 /\ mean g 3 = 0).
  { intros f. apply kalman_still.
    - apply Forall_map. revert F. apply Forall_impl. intros a E. rewrite E. reflexivity.
    - destruct pts; [congruence|discriminate]. }
  pose (kx := kalman (kp_process kp) (kp_measure kp) (xs_of pts)). pose (ky := kalman (kp_process kp) (kp_measure kp) (ys_of pts)).
  pose (dt := (last ts 0 - hd 0 ts) / INR (List.length ts)).
  assert (HX : mean kx 0 = vx q /\ mean kx 1 = 0 /\ mean kx 2 = 0 /\ mean kx 3 = 0) by exact (X vx).
  assert (HY : mean ky 0 = vy q /\ mean ky 1 = 0 /\ mean ky 2 = 0 /\ mean ky 3 = 0) by exact (X vy).
  change (estimate kp pts) with (let wa := kp_acc_weight kp in let wj := kp_jerk_weight kp in
    mkKEst (mkVec2 (mean kx 0) (mean ky 0)) (mkVec2 (mean kx 1 / dt) (mean ky 1 / dt))
         (mkVec2 (wa * (mean kx 2 / dt ^ 2)) (wa * (mean ky 2 / dt ^ 2)))
         (mkVec2 (wj * (mean kx 3 / dt ^ 3)) (wj * (mean ky 3 / dt ^ 3)))).
  clearbody dt kx ky. destruct HX as (X0 & X1 & X2 & X3). destruct HY as (Y0 & Y1 & Y2 & Y3). cbv zeta.
  rewrite X0, X1, X2, X3, Y0, Y1, Y2, Y3. f_equal; apply vec_eq; try reflexivity; cbn [vx vy]; unfold Rdiv;
    match goal with |- @eq _ ?a ?b => change (@eq R a b) end; ring.
Qed.

(** The predictions of the API: as soon as there are enough inputs, exactly one
    result, at the pen and at rest (the one that catches up; nothing is extrapolated). *)
Theorem C43_resting_kalman_prediction : forall (A := real_arith) fuel hist s p kp es seen q rs out,
  let ts := most_recent (kp_max_times kp) (map (fun e => i_time (fst e)) es) in
  after_seen fuel hist s es seen -> ps_params s = Some p -> p_prediction p = PredKalman kp ->
  Forall (at_point q) seen -> hd 0 ts <> last ts 0 ->
  answers fuel hist [CPredict rs] = Ret [RResults OkStatus out] ->
  if (Z.of_nat (List.length es) <? kp_min_stable kp)%Z then out = [] else exists r, out = [r] /\ resting q r.
Proof.
  intros A fuel hist s p kp es seen q rs out ts AS P PK F _ AN. subst A.
  assert (AF : after fuel hist s) by (destruct AS as (ma & rsa & Ra & Pa & _); exists ma, rsa; auto).
  destruct (rest_state fuel q hist s es seen AS) as (m & rs0 & R0 & (T1 & T2 & _) & G & C & J).
  destruct (remembered_state _ _ _ _ _ AS) as (m1 & rs1 & R1 & _ & _ & _ & RM). rewrite R0 in R1. injection R1 as <- <-.
  destruct (accepted_predict _ _ _ _ _ _ AF AN) as (m1 & r0 & m' & R & _ & _ & _ & U). rewrite R0 in R. injection R as <- <-.
  destruct (prd_ok fuel m m' out U) as (p' & pr & last0 & tips & lm & MQ & MPR & ML & PC & MS & _).
  assert (p' = p) by congruence. subst p'. pose proof (g_valid _ G p MQ) as V. pose proof (J p last0 MQ ML F) as JJ. pose proof (rest_recall _ _ _ _ _ G C MQ ML JJ) as RC.
  destruct (RM p last0 MQ ML) as (cs & ws & [H1 H2 H3 H4 H5 H6]).
  assert (ON : prediction_on p = true) by (unfold prediction_on; rewrite PK; reflexivity). specialize (H6 ON).
  destruct JJ as [J1 J2 J3 J4 J5 J6 J7]. cbn [core_of co_w co_s co_last co_pred co_tip] in *. rewrite ON, MPR in *.
  destruct (valid_kalman_R p kp V PK) as (_ & _ & _ & MT & _).
  destruct (predicting_kalman p kp _ _ PK MT H6) as (k & EK & K1 & K2 & K3 & K4 & K5 & K6). apply some_inj in EK. subst pr. cbn [pred_construct] in PC.
  destruct H5 as (e0 & w0 & o0 & H5a & H5b).
  assert (KL : k_last k <> None).
  { rewrite K3, H5a, H5b, map_app. cbn [map fst]. rewrite combine_snoc.
    - rewrite back_snoc. discriminate.
    - rewrite H5a, H5b, !app_length in H3. cbn in H3. rewrite map_length. lia. }
  assert (LP : List.length (combine (map fst es) ws) = List.length es) by (rewrite combine_length, map_length, H3; apply Nat.min_id).
  assert (ES : kpred_stable k = negb (Z.of_nat (List.length es) <? kp_min_stable kp)%Z).
  { destruct (valid_kalman_R p kp V PK) as (V1 & V2 & _).
    destruct (filtering_kalman _ _ _ _ (Rlt_le _ _ V1) V2 K5) as [_ IX]. destruct (filtering_kalman _ _ _ _ (Rlt_le _ _ V1) V2 K6) as [_ IY].
    unfold xs_of, ys_of in IX, IY. rewrite map_length in IX, IY. rewrite LP in IX, IY.
    unfold kpred_stable. rewrite IX, IY, K1, andb_diag. rewrite Z.ltb_antisym, negb_involutive. reflexivity. }
  assert (TN : k_times k <> []).
  { rewrite K4. unfold most_recent. intros E. apply (f_equal (@List.length _)) in E. rewrite skipn_length, map_length in E. cbn [List.length] in E.
    rewrite LP in E. rewrite H5a, app_length in E. cbn [List.length] in E. lia. }
  pose proof (kalman_rest p kp k q _ tips V PK K1 J5 J2 PC) as KR.
  pose proof (model_stylus_length _ _ _ _ _ _ _ _ MS) as LN.
  destruct (Z.of_nat (List.length es) <? kp_min_stable kp)%Z; cbn [negb] in ES.
  - destruct KR as [[-> _]|[E _]]; [|congruence]. destruct out; [reflexivity|discriminate LN].
  - destruct KR as [[_ [E|[E|E]]]|[_ (t & -> & TR)]]; [congruence|congruence|congruence|].
    destruct out as [|r [|r' l]]; try discriminate LN. exists r. split; [reflexivity|].
    apply (Forall_inv (l := [])). eapply model_stylus_rest; [exact J3| |exact RC|exact MS]. constructor; [exact TR|constructor].
Qed.
