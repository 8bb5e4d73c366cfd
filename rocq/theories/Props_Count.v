(** * C21: how many results a call produces, for every arithmetic. *)
From Verif Require Export Cons.
From Coq Require Import Lia.

Section Count.
Context {A : Arith}.
Variable fuel : nat.

Notation answers := (answers fuel).
Notation after := (after fuel).

Lemma number_of_steps_le : forall tip a b sp pp n,
  number_of_steps tip a b sp pp = Ret (IOk n) -> n <= sp_max_outputs sp.
Proof.
  intros tip a b sp pp n NS. unfold number_of_steps, to_int in NS.
  repeat match type of NS with
  | match ?x with _ => _ end = _ => destruct x eqn:?
  | (if ?x then _ else _) = _ => destruct x eqn:?
  | _ => discriminate
  end; inversion NS; subst; lia.
Qed.

Lemma path_loop_length : forall k p s sp st ep et n i tip tips,
  path_loop p s sp st ep et n i k = (tip, tips) -> List.length tips = k.
Proof.
  induction k as [|k IH]; intros p s sp st ep et n i tip tips H; cbn in H.
  - inversion H; reflexivity.
  - destruct (path_loop _ _ _ _ _ _ _ _ k) as [sf o] eqn:E. inversion H; subst. cbn. f_equal. eauto.
Qed.

Lemma update_along_path_length : forall p s sp st ep et n tip tips,
  update_along_path p s sp st ep et n = Ret (tip, tips) -> List.length tips = Z.to_nat n.
Proof.
  intros p s sp st ep et n tip tips H. unfold update_along_path in H.
  destruct (Z.leb INT_MAX n); [discriminate|]. inversion H. eapply path_loop_length. eassumption.
Qed.

Lemma end_of_stroke_length : forall k p s anchor d stop tip tips,
  model_end_of_stroke p s anchor d k stop = (tip, tips) -> (List.length tips <= k)%nat.
Proof.
  induction k as [|k IH]; intros p s anchor d stop tip tips H; cbn in H.
  - inversion H; cbn; lia.
  - destruct (fltb _ stop); [inversion H; cbn; lia|].
    destruct (fltb _ f1); [apply IH in H; lia|].
    destruct (fltb _ stop); [inversion H; cbn; lia|].
    destruct (model_end_of_stroke _ _ _ _ k _) as [sf o] eqn:E. inversion H; subst. apply IH in E. cbn. lia.
Qed.

Lemma valid_counts : forall p, validate_params p = OkStatus ->
  1 <= sp_max_iter (p_sampling p) <= 1000 /\ 1 <= sp_max_outputs (p_sampling p).
Proof.
  intros p V. destruct (validate_params_parts p V) as (_ & _ & VS & _). unfold validate_sampling in VS.
  apply and_then_ok in VS. destruct VS as [_ VS]. apply and_then_ok in VS. destruct VS as [_ VS].
  apply and_then_ok in VS. destruct VS as [V1 VS]. unfold validate_gt0_i in V1.
  destruct (Z.leb_spec (sp_max_iter (p_sampling p)) 0); [discriminate|].
  unfold kMaxEndOfStrokeMaxIterations in VS. destruct (Z.ltb_spec 1000 (sp_max_iter (p_sampling p))); [discriminate|].
  apply and_then_ok in VS. destruct VS as [V2 _]. unfold validate_gt0_i in V2.
  destruct (Z.leb_spec (sp_max_outputs (p_sampling p)) 0); [discriminate|]. lia.
Qed.

(** A successful Move appends at most max_outputs_per_call results. *)
Theorem C21_move_bound : forall hist s p i rs out,
  after hist s -> ps_params s = Some p -> i_event i = EMove ->
  answers hist [CUpdate i rs] = Ret [RResults OkStatus (rs ++ out)] ->
  Z.of_nat (List.length out) <= sp_max_outputs (p_sampling p).
Proof.
  intros hist s p i rs out H P EM AN.
  destruct (accepted_update _ _ _ _ _ _ _ H AN) as (m & r0 & m' & o & R & (T1 & _) & G & C & K & U & _).
  apply app_inv_head in K. subst o.
  destruct (upd_move _ _ _ _ _ U EM) as (p0 & last & w & c & sm & n & tip & tips & pred & lm & MP & _ & _ & _ & _ & _ & NS & UP & _ & MS & _).
  assert (p0 = p) by congruence. subst p0.
  assert (V : validate_params p = OkStatus) by (apply (g_valid _ G); congruence).
  pose proof (valid_counts p V). apply number_of_steps_le in NS. apply update_along_path_length in UP.
  apply model_stylus_length in MS. rewrite MS, UP. lia.
Qed.

(** A successful Up appends at most max_outputs_per_call plus
    end_of_stroke_max_iterations results. *)
Theorem C21_up_bound_partial : forall hist s p i rs out,
  after hist s -> ps_params s = Some p -> i_event i = EUp ->
  answers hist [CUpdate i rs] = Ret [RResults OkStatus (rs ++ out)] ->
  Z.of_nat (List.length out) <= sp_max_outputs (p_sampling p) + sp_max_iter (p_sampling p).
Proof.
  intros hist s p i rs out H P EM AN.
  destruct (accepted_update _ _ _ _ _ _ _ H AN) as (m & r0 & m' & o & R & (T1 & _) & G & C & K & U & _).
  apply app_inv_head in K. subst o.
  destruct (upd_up _ _ _ _ _ U EM) as (p0 & last & n & tip1 & tips1 & tip2 & tips2 & sm & lm & MP & _ & _ & _ & NS & UP & ME & _ & MS & _).
  assert (p0 = p) by congruence. subst p0.
  assert (V : validate_params p = OkStatus) by (apply (g_valid _ G); congruence).
  pose proof (valid_counts p V). apply number_of_steps_le in NS. apply update_along_path_length in UP.
  apply end_of_stroke_length in ME.
  apply model_stylus_length in MS. rewrite MS. clear MS.
  assert (L : (List.length (tips1 ++ tips2) = List.length tips1 + List.length tips2)%nat) by apply app_length.
  destruct (tips1 ++ tips2); cbn [List.length] in *; lia.
Qed.

(** A stroke-end prediction has at most end_of_stroke_max_iterations results. *)
Theorem C21_stroke_end_prediction_bound : forall hist s p rs out,
  after hist s -> ps_params s = Some p -> p_prediction p = PredStrokeEnd ->
  answers hist [CPredict rs] = Ret [RResults OkStatus out] ->
  Z.of_nat (List.length out) <= sp_max_iter (p_sampling p).
Proof.
  intros hist s p rs out H P EM AN.
  destruct (accepted_predict _ _ _ _ _ _ H AN) as (m & r0 & m' & R & (T1 & _) & G & C & U).
  assert (V : validate_params p = OkStatus) by (apply (g_valid _ G); congruence).
  pose proof (valid_counts p V).
  destruct (g_on _ G p) as [K _]; [congruence|unfold prediction_on; rewrite EM; reflexivity|].
  unfold make_predictor in K. rewrite EM in K.
  destruct (prd_ok _ _ _ _ U) as (p0 & pr & last & tips & lm & MP & MR & _ & PC & MS & _).
  apply model_stylus_length in MS. rewrite MS.
  rewrite MR in K. destruct pr as [pp sp lp|k]; [|discriminate K]. cbn in K. inversion K; subst.
  cbn in PC. destruct lp; inversion PC; subst; [|cbn; lia].
  destruct (model_end_of_stroke _ _ _ _ _ _) as [tip tips] eqn:ME. apply end_of_stroke_length in ME. cbn. lia.
Qed.

End Count.
