(** * Inversion of Update and Predict, for every arithmetic. *)
From Verif Require Export Struct.
From Coq Require Import Lia.

Section Inv.
Context {A : Arith}.

Definition upd_pred (pr : option Predictor) (pos : Vec2) (t : D) : outcome (option Predictor) :=
  match pr with
  | None => Ret None
  | Some q => let* q' := pred_update q pos t in Ret (Some q')
  end.

Definition down_result (i : Input) : Result :=
  mkResult (i_pos i) vzero vzero (i_time i) (i_pressure i) (i_tilt i) (i_orient i).

(** All the ways an Update can return. *)
(** A Move rejected with one of these two messages has been seen by the smoother
    and the stylus history all the same (see C10). *)
Definition traced (i : Input) (s : status) : bool :=
  match i_event i, s with
  | EMove, InvalidArgument m => String.eqb m msg_non_finite || String.eqb m msg_too_far
  | _, _ => false
  end.

Inductive upd (fuel : nat) (m : Modeler) (i : Input) : Modeler -> status -> list Result -> Prop :=
| UReject s : s <> OkStatus -> traced i s = false -> upd fuel m i m s []
| UDown p sm pred :
    m_params m = Some p -> validate_input i = OkStatus -> i_event i = EDown -> m_last m = None ->
    stylus_update (stylus_reset (m_stylus m) (p_stylus p)) (i_pos i) (i_time i)
      (i_pressure i) (i_tilt i) (i_orient i) = Ret sm ->
    upd_pred (option_map pred_reset (m_predictor m)) (i_pos i) (i_time i) = Ret pred ->
    upd fuel m i
      (mkModeler pred (m_params m) (wobble_reset (m_wobble m) (p_wobble p) (i_pos i) (i_time i))
         (pos_reset (mkTip (i_pos i) vzero vzero (i_time i)) (p_position p)) sm
         (loop_reset (m_loop m) (pp_loop (p_position p))) (m_buffer m)
         (Some (mkLast i (i_pos i))) (m_saved_predictor m) (m_saved_last m) (m_save_active m))
      OkStatus [down_result i]
| UMoveErr p last w c sm e :
    m_params m = Some p -> validate_input i = OkStatus -> i_event i = EMove -> m_last m = Some last ->
    input_eqb (li_input last) i = false -> dltb (i_time i) (i_time (li_input last)) = false ->
    wobble_update (m_wobble m) (i_pos i) (i_time i) = Ret (w, c) ->
    stylus_update (m_stylus m) c (i_time i) (i_pressure i) (i_tilt i) (i_orient i) = Ret sm ->
    number_of_steps (pm_state (m_pos m)) (li_input last) i (p_sampling p) (p_position p) = Ret (IErr e) ->
    e <> OkStatus ->
    upd fuel m i
      (mkModeler (m_predictor m) (m_params m) w (m_pos m) sm (m_loop m) (m_buffer m)
         (m_last m) (m_saved_predictor m) (m_saved_last m) (m_save_active m))
      e []
| UMove p last w c sm n tip tips pred lm out :
    m_params m = Some p -> validate_input i = OkStatus -> i_event i = EMove -> m_last m = Some last ->
    input_eqb (li_input last) i = false -> dltb (i_time i) (i_time (li_input last)) = false ->
    wobble_update (m_wobble m) (i_pos i) (i_time i) = Ret (w, c) ->
    stylus_update (m_stylus m) c (i_time i) (i_pressure i) (i_tilt i) (i_orient i) = Ret sm ->
    number_of_steps (pm_state (m_pos m)) (li_input last) i (p_sampling p) (p_position p) = Ret (IOk n) ->
    update_along_path (pm_params (m_pos m)) (pm_state (m_pos m)) (li_corrected last)
      (i_time (li_input last)) c (i_time i) n = Ret (tip, tips) ->
    upd_pred (m_predictor m) c (i_time i) = Ret pred ->
    model_stylus fuel tips sm (m_loop m) (i_time i) = Ret (lm, out) ->
    upd fuel m i
      (mkModeler pred (m_params m) w (pos_with_state (m_pos m) tip) sm lm tips
         (Some (mkLast i c)) (m_saved_predictor m) (m_saved_last m) (m_save_active m))
      OkStatus out
| UUp p last n tip1 tips1 tip2 tips2 sm lm out :
    m_params m = Some p -> validate_input i = OkStatus -> i_event i = EUp -> m_last m = Some last ->
    input_eqb (li_input last) i = false -> dltb (i_time i) (i_time (li_input last)) = false ->
    number_of_steps (pm_state (m_pos m)) (li_input last) i (p_sampling p) (p_position p) = Ret (IOk n) ->
    update_along_path (pm_params (m_pos m)) (pm_state (m_pos m)) (li_corrected last)
      (i_time (li_input last)) (i_pos i) (i_time i) n = Ret (tip1, tips1) ->
    model_end_of_stroke (pm_params (m_pos m)) tip1 (i_pos i) (ddiv (dofZ 1) (sp_rate (p_sampling p)))
      (Z.to_nat (sp_max_iter (p_sampling p))) (sp_stop (p_sampling p)) = (tip2, tips2) ->
    stylus_update (m_stylus m) (i_pos i) (i_time i) (i_pressure i) (i_tilt i) (i_orient i) = Ret sm ->
    model_stylus fuel (match tips1 ++ tips2 with [] => [tip2] | l => l end) sm (m_loop m)
      (i_time (li_input last)) = Ret (lm, out) ->
    upd fuel m i
      (mkModeler (m_predictor m) (m_params m) (m_wobble m) (pos_with_state (m_pos m) tip2) sm lm
         (match tips1 ++ tips2 with [] => [tip2] | l => l end) None
         (m_saved_predictor m) (m_saved_last m) (m_save_active m))
      OkStatus out.

Lemma number_of_steps_err : forall tip a b sp pp e,
  number_of_steps tip a b sp pp = Ret (IErr e) -> e <> OkStatus.
Proof.
  intros tip a b sp pp e NS. unfold number_of_steps, to_int in NS.
  repeat match type of NS with
  | match ?x with _ => _ end = _ => destruct x
  | (if ?x then _ else _) = _ => destruct x
  | _ => discriminate
  | Ret _ = Ret _ => inversion NS; subst; discriminate
  end.
Qed.

Lemma number_of_steps_traced : forall tip a b sp pp e i, i_event i = EMove ->
  number_of_steps tip a b sp pp = Ret (IErr e) -> traced i e = true.
Proof.
  intros tip a b sp pp e i EV NS. unfold traced. rewrite EV. unfold number_of_steps, to_int in NS.
  repeat match type of NS with
  | match ?x with _ => _ end = _ => destruct x
  | (if ?x then _ else _) = _ => destruct x
  | _ => discriminate
  | Ret _ = Ret _ => inversion NS; subst; reflexivity
  end.
Qed.

Lemma validate_input_traced : forall i, traced i (validate_input i) = false.
Proof.
  intros i. unfold traced, validate_input, validate_finite_f, validate_finite_d.
  destruct (i_event i); try reflexivity.
  repeat (match goal with |- context [if ?b then _ else _] => destruct b end; try reflexivity).
Qed.

Ltac bind_inv H :=
  match type of H with
  | obind ?m _ = Ret _ =>
      let E := fresh "E" in
      destruct m eqn:E; cbn [obind] in H; try discriminate H
  end.

Theorem update_inv : forall fuel m i rs m' s rs',
  update fuel m i rs = Ret (m', s, rs') ->
  exists out, rs' = rs ++ out /\ upd fuel m i m' s out.
Proof.
  intros fuel m i rs m' s rs' H. unfold update in H.
  assert (REJ : forall e, e <> OkStatus -> traced i e = false -> Ret (m, e, rs) = Ret (m', s, rs') ->
    exists out, rs' = rs ++ out /\ upd fuel m i m' s out).
  { intros e N T E. inversion E; subst. exists []. rewrite app_nil_r. split; [reflexivity|]. constructor; assumption. }
  destruct (m_params m) as [p|] eqn:P; [| refine (REJ _ _ _ H); [discriminate|unfold traced; destruct (i_event i); reflexivity]].
  pose proof (validate_input_traced i) as VT.
  destruct (validate_input i) eqn:V; try (refine (REJ _ _ VT H); discriminate).
  destruct (m_last m) as [last|] eqn:L.
  - destruct (input_eqb (li_input last) i) eqn:Q; [refine (REJ _ _ _ H); [discriminate|unfold traced; destruct (i_event i); reflexivity]|].
    destruct (dltb (i_time i) (i_time (li_input last))) eqn:T; [refine (REJ _ _ _ H); [discriminate|unfold traced; destruct (i_event i); reflexivity]|].
    destruct (i_event i) eqn:EV.
    + unfold process_down in H. rewrite L in H. refine (REJ _ _ _ H); [discriminate|unfold traced; destruct (i_event i); reflexivity].
    + unfold process_move in H. rewrite L in H.
      bind_inv H. destruct x as [w c]. bind_inv H. bind_inv H. destruct x0 as [n|e].
      * bind_inv H. destruct x0 as [tip tips]. bind_inv H. bind_inv H. destruct x1 as [lm out].
        inversion H; subst. exists out. split; [reflexivity|].
        eapply UMove; eauto.
      * inversion H; subst. exists []. rewrite app_nil_r. split; [reflexivity|].
        rewrite <- L. eapply UMoveErr; eauto using number_of_steps_err.
    + unfold process_up in H. rewrite L in H.
      bind_inv H. destruct x as [n|e].
      * bind_inv H. destruct x as [tip1 tips1].
        destruct (model_end_of_stroke _ _ _ _ _ _) as [tip2 tips2] eqn:ME.
        bind_inv H. bind_inv H. destruct x0 as [lm out]. inversion H; subst.
        exists out. split; [reflexivity|]. eapply UUp; eauto.
      * apply number_of_steps_err in E. refine (REJ _ E _ H). unfold traced. rewrite EV. reflexivity.
    + exfalso. eapply validate_event; eauto.
  - destruct (i_event i) eqn:EV.
    + unfold process_down in H. rewrite L in H. bind_inv H.
      assert (K : upd_pred (option_map pred_reset (m_predictor m)) (i_pos i) (i_time i) =
        match m_predictor m with
        | None => Ret None
        | Some pr => let* pr' := pred_update (pred_reset pr) (i_pos i) (i_time i) in Ret (Some pr')
        end) by (destruct (m_predictor m); reflexivity).
      rewrite <- K in H. bind_inv H. inversion H; subst. exists [down_result i]. split; [reflexivity|].
      eapply UDown; eauto.
    + unfold process_move in H. rewrite L in H. refine (REJ _ _ _ H); [discriminate|unfold traced; destruct (i_event i); reflexivity].
    + unfold process_up in H. rewrite L in H. refine (REJ _ _ _ H); [discriminate|unfold traced; destruct (i_event i); reflexivity].
    + exfalso. eapply validate_event; eauto.
Qed.

(** All the ways a Predict can return. *)
Inductive prd (fuel : nat) (m : Modeler) : Modeler -> status -> list Result -> Prop :=
| PReject s : s <> OkStatus ->
    (m_params m = None \/ m_predictor m = None \/ m_last m = None) -> prd fuel m m s []
| POk p pr last tips lm out :
    m_params m = Some p -> m_predictor m = Some pr -> m_last m = Some last ->
    pred_construct pr (pm_state (m_pos m)) = Ret tips ->
    model_stylus fuel tips (m_stylus m) (m_loop m) (i_time (li_input last)) = Ret (lm, out) ->
    prd fuel m
      (mkModeler (m_predictor m) (m_params m) (m_wobble m) (m_pos m) (m_stylus m) (m_loop m) tips
         (m_last m) (m_saved_predictor m) (m_saved_last m) (m_save_active m)) OkStatus out.

Theorem predict_inv : forall fuel m rs m' s rs',
  predict fuel m rs = Ret (m', s, rs') -> prd fuel m m' s rs'.
Proof.
  intros fuel m rs m' s rs' H. unfold predict in H.
  destruct (m_params m) as [p|] eqn:P; [| inversion H; subst; constructor; [discriminate|auto]].
  destruct (m_predictor m) as [pr|] eqn:Q; [| inversion H; subst; constructor; [discriminate|auto]].
  destruct (m_last m) as [l|] eqn:L; [| inversion H; subst; constructor; [discriminate|auto]].
  bind_inv H. bind_inv H. destruct x0 as [lm out]. inversion H; subst.
  rewrite <- P, <- Q, <- L. eapply POk; eauto.
Qed.

Lemma predict_any_vector : forall fuel m rs rs2, predict fuel m rs = predict fuel m rs2.
Proof. reflexivity. Qed.

(** Update is oblivious of the vector. *)
Lemma update_vector : forall fuel m i rs,
  update fuel m i rs = let* '(m', s, out) := update fuel m i [] in Ret (m', s, rs ++ out).
Proof.
  intros. rewrite update_inject, (update_inject fuel m i []).
  destruct (update fuel (inject m) i []) as [[[m' s] out]| |]; reflexivity.
Qed.

(** ** run *)
Lemma run_app : forall fuel cs1 cs2 m,
  run fuel m (cs1 ++ cs2) =
  let* '(m1, rs1) := run fuel m cs1 in
  let* '(m2, rs2) := run fuel m1 cs2 in Ret (m2, rs1 ++ rs2).
Proof.
  intros fuel cs1. induction cs1 as [|c cs1 IH]; intros cs2 m.
  - cbn. destruct (run fuel m cs2) as [[m2 rs2]| |]; reflexivity.
  - cbn. destruct (step fuel m c) as [[m' r]| |]; cbn; try reflexivity.
    rewrite IH. destruct (run fuel m' cs1) as [[m1 rs1]| |]; cbn; try reflexivity.
    destruct (run fuel m1 cs2) as [[m2 rs2]| |]; reflexivity.
Qed.

Lemma run_length : forall fuel cs m m' rs, run fuel m cs = Ret (m', rs) -> List.length rs = List.length cs.
Proof.
  intros fuel cs. induction cs as [|c cs IH]; intros m m' rs H; cbn in H.
  - inversion H; reflexivity.
  - destruct (step fuel m c) as [[m1 r]| |]; cbn in H; try discriminate.
    destruct (run fuel m1 cs) as [[m2 rs2]| |] eqn:E; cbn in H; try discriminate.
    inversion H; subst. cbn. f_equal. eauto.
Qed.

Lemma answers_app : forall fuel h cs1 cs2,
  answers fuel h (cs1 ++ cs2) =
  let* r1 := answers fuel h cs1 in
  let* r2 := answers fuel (h ++ cs1) cs2 in Ret (r1 ++ r2).
Proof.
  intros. unfold answers. rewrite run_app.
  destruct (run fuel modeler0 h) as [[m rs]| |]; cbn; try reflexivity.
  rewrite run_app. destruct (run fuel m cs1) as [[m1 rs1]| |]; cbn; try reflexivity.
  destruct (run fuel m1 cs2) as [[m2 rs2]| |]; reflexivity.
Qed.

(** ** Invariance over histories *)
Lemma run_invariant : forall fuel (P : Modeler -> Prop),
  (forall m c m' r, P m -> step fuel m c = Ret (m', r) -> P m') ->
  forall cs m m' rs, P m -> run fuel m cs = Ret (m', rs) -> P m'.
Proof.
  intros fuel P S cs. induction cs as [|c cs IH]; intros m m' rs H R; cbn in R.
  - inversion R; subst; assumption.
  - destruct (step fuel m c) as [[m1 r]| |] eqn:E; cbn in R; try discriminate.
    destruct (run fuel m1 cs) as [[m2 rs2]| |] eqn:E2; cbn in R; try discriminate.
    inversion R; subst. eapply IH; [|eassumption]. eapply S; eauto.
Qed.

(** Invariants that also see the call and reply (with a client-side ghost state). *)
Lemma run_ghost : forall fuel (G : Type) (g : G -> call -> reply -> G) (P : G -> Modeler -> Prop),
  (forall s m c m' r, P s m -> step fuel m c = Ret (m', r) -> P (g s c r) m') ->
  forall cs s m m' rs, P s m -> run fuel m cs = Ret (m', rs) ->
  P ((fix go s cs rs := match cs, rs with
      | c :: cs', r :: rs' => go (g s c r) cs' rs'
      | _, _ => s end) s cs rs) m'.
Proof.
  intros fuel G g P S cs. induction cs as [|c cs IH]; intros s m m' rs H R; cbn in R.
  - inversion R; subst; assumption.
  - destruct (step fuel m c) as [[m1 r]| |] eqn:E; cbn in R; try discriminate.
    destruct (run fuel m1 cs) as [[m2 rs2]| |] eqn:E2; cbn in R; try discriminate.
    inversion R; subst. eapply IH; [|eassumption]. eapply S; eauto.
Qed.

Lemma prun_app : forall (cs1 cs2 : list call) (rs1 rs2 : list reply) s,
  List.length rs1 = List.length cs1 ->
  prun s (cs1 ++ cs2) (rs1 ++ rs2) = prun (prun s cs1 rs1) cs2 rs2.
Proof.
  induction cs1 as [|c cs1 IH]; intros cs2 rs1 rs2 s H; destruct rs1 as [|r rs1]; try discriminate H.
  - reflexivity.
  - cbn. apply IH. cbn in H. lia.
Qed.

(** ** The protocol automaton tracks the modeler *)
Definition tracks (s : pstate) (m : Modeler) : Prop :=
  ps_params s = m_params m /\
  ps_last s = option_map li_input (m_last m) /\
  ps_saved s = (if m_save_active m then Some (option_map li_input (m_saved_last m)) else None).

Lemma tracks0 : tracks pstate0 modeler0.
Proof. repeat split. Qed.

Lemma tracks_step : forall fuel s m c m' r,
  tracks s m -> step fuel m c = Ret (m', r) -> tracks (pstep s c r) m'.
Proof.
  intros fuel s m c m' r T H. destruct T as (T1 & T2 & T3).
  destruct c; cbn in H.
  - unfold reset_params in H. destruct (validate_params p); inversion H; subst; repeat split; assumption.
  - unfold reset_keep in H. destruct (m_params m) eqn:P; inversion H; subst; repeat split; cbn; congruence.
  - destruct (update fuel m i results) as [[[m1 s1] rs1]| |] eqn:U; cbn in H; try discriminate.
    inversion H; subst. apply update_inv in U. destruct U as (out & -> & U).
    destruct U.
    + cbn. destruct s0; try (repeat split; assumption). congruence.
    + cbn. rewrite H2. repeat split; cbn; congruence.
    + cbn. destruct e; try congruence; repeat split; cbn; congruence.
    + cbn. rewrite H2. repeat split; cbn; congruence.
    + cbn. rewrite H2. repeat split; cbn; congruence.
  - destruct (predict fuel m results) as [[[m1 s1] rs1]| |] eqn:U; cbn in H; try discriminate.
    inversion H; subst. apply predict_inv in U. destruct U; repeat split; cbn; congruence.
  - inversion H; subst. repeat split; cbn; congruence.
  - inversion H; subst. unfold restore. cbn. destruct (m_save_active m) eqn:SA; rewrite T3.
    + repeat split; cbn; congruence.
    + repeat split; cbn; rewrite ?SA; assumption.
Qed.

Lemma tracks_run : forall fuel cs s m m' rs,
  tracks s m -> run fuel m cs = Ret (m', rs) -> tracks (prun s cs rs) m'.
Proof.
  intros fuel cs. induction cs as [|c cs IH]; intros s m m' rs T R; cbn in R.
  - inversion R; subst. exact T.
  - destruct (step fuel m c) as [[m1 r]| |] eqn:E; cbn in R; try discriminate.
    destruct (run fuel m1 cs) as [[m2 rs2]| |] eqn:E2; cbn in R; try discriminate.
    inversion R; subst. cbn. eapply IH; [|eassumption]. eapply tracks_step; eauto.
Qed.

Lemma after_tracks : forall fuel hist s,
  after fuel hist s <-> exists m rs, run fuel modeler0 hist = Ret (m, rs) /\ prun pstate0 hist rs = s /\ tracks s m.
Proof.
  intros. split.
  - intros (m & rs & R & P). exists m, rs. repeat split; auto; subst s;
      pose proof (tracks_run _ _ _ _ _ _ tracks0 R) as (T1 & T2 & T3); assumption.
  - intros (m & rs & R & P & _). exists m, rs. auto.
Qed.

End Inv.
Ltac bind_inv H :=
  match type of H with
  | obind ?m _ = Ret _ =>
      let E := fresh "E" in
      destruct m eqn:E; cbn [obind] in H; try discriminate H
  end.
