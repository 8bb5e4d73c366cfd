(** * C13, C14, C17: exactly when prediction is available, and what that means for
      Restore, for every arithmetic. *)
From Coq Require Import ZArith Bool List Lia String.
From Verif Require Export Props_API.
Import ListNotations.

Section Offer.
Context {A : Arith}.
Variable fuel : nat.

(** ** Specification *)
(** What a client has to keep track of to know whether Predict is available: is
    there a predictor, has one been saved, has Save been called since the last
    successful Reset.  A Reset says whether there is one; Save keeps the one there
    is, but forgets none; Restore brings back a kept one, but takes none away. *)
Record offer : Type := mkOffer { of_now : bool; of_kept : bool; of_saved : bool }.
Definition offer0 : offer := mkOffer false false false.
Definition offer_step (o : offer) (c : call) (r : reply) : offer :=
  match c, r with
  | CReset p, RStatus OkStatus => mkOffer (prediction_on p) (of_kept o) false
  | CResetKeep, RStatus OkStatus => mkOffer (of_now o) (of_kept o) false
  | CSave, _ => mkOffer (of_now o) (of_kept o || of_now o) true
  | CRestore, _ => if of_saved o then mkOffer (of_now o || of_kept o) (of_kept o) true else o
  | _, _ => o
  end.
Fixpoint offer_run (o : offer) (cs : list call) (rs : list reply) : offer :=
  match cs, rs with
  | c :: cs', r :: rs' => offer_run (offer_step o c r) cs' rs'
  | _, _ => o
  end.
Definition offers (hist : list call) (o : offer) : Prop :=
  exists m rs, run fuel modeler0 hist = Ret (m, rs) /\ offer_run offer0 hist rs = o.

(** ** Proof *)
Definition has {X} (o : option X) : bool := match o with Some _ => true | None => false end.
Definition mirrors (o : offer) (m : Modeler) : Prop :=
  of_now o = has (m_predictor m) /\ of_kept o = has (m_saved_predictor m) /\ of_saved o = m_save_active m.

Lemma has_pred : forall pr pos t pr', upd_pred pr pos t = Ret pr' -> has pr' = has pr.
Proof. intros [q|] pos t pr' H; cbn in H; [bind_inv H|]; inversion H; reflexivity. Qed.
Lemma has_make : forall p, has (make_predictor p) = prediction_on p.
Proof. intros p. unfold make_predictor, prediction_on. destruct (p_prediction p); reflexivity. Qed.

Lemma mirrors_step : forall m c m' r o, mirrors o m -> step fuel m c = Ret (m', r) -> mirrors (offer_step o c r) m'.
Proof.
  intros m c m' r o (M1 & M2 & M3) H. destruct c; cbn in H.
  - unfold reset_params in H. destruct (validate_params p) eqn:V; inversion H; subst; cbn; [|split; auto|split; auto].
    split; [symmetry; apply has_make|]. cbn. auto.
  - unfold reset_keep in H. destruct (m_params m); inversion H; subst; split; cbn; auto.
  - bind_inv H. destruct x as [[m1 s1] rs1]. inversion H; subst. cbn. apply update_inv in E. destruct E as (out & -> & U).
    unfold mirrors in *. destruct U; cbn; auto.
    + rewrite (has_pred _ _ _ _ H5). split; [|auto]. rewrite M1. destruct (m_predictor m); reflexivity.
    + match goal with HU : upd_pred _ _ _ = _ |- _ => rewrite (has_pred _ _ _ _ HU) end. auto.
  - bind_inv H. destruct x as [[m1 s1] rs1]. inversion H; subst. cbn. apply predict_inv in E. destruct E; unfold mirrors in *; cbn; auto.
  - inversion H; subst. unfold mirrors, save. cbn. rewrite M1, M2. destruct (m_predictor m), (m_saved_predictor m); auto.
  - inversion H; subst. unfold mirrors, restore in *. cbn. rewrite M3. destruct (m_save_active m) eqn:SA; cbn; [|rewrite SA; auto].
    rewrite M1, M2. destruct (m_predictor m), (m_saved_predictor m); cbn; auto.
Qed.
Lemma mirrors_run : forall cs m m' rs o, mirrors o m -> run fuel m cs = Ret (m', rs) -> mirrors (offer_run o cs rs) m'.
Proof.
  induction cs as [|c cs IH]; intros m m' rs o M R; cbn in R.
  - inversion R; subst. exact M.
  - bind_inv R. destruct x as [m1 r]. bind_inv R. destruct x as [m2 rs2]. inversion R; subst. cbn.
    eapply IH; [|exact E0]. eapply mirrors_step; [exact M|exact E].
Qed.
Lemma offers_mirrors : forall hist o m rs, offers hist o -> run fuel modeler0 hist = Ret (m, rs) -> mirrors o m.
Proof.
  intros hist o m rs (m1 & rs1 & R1 & <-) R. rewrite R1 in R. inversion R; subst. eapply mirrors_run; [|exact R1].
  split; [reflexivity|split; reflexivity].
Qed.

(** ** C13 *)
(** Predict fails exactly if the modeler is unconfigured, no stroke is in progress,
    or no predictor is there; then it returns and leaves the vector empty. *)
Theorem C13_predict_fails_exactly : forall hist s o rs,
  after fuel hist s -> offers hist o ->
  (ps_params s = None \/ in_stroke s = false \/ of_now o = false <->
   exists msg, answers fuel hist [CPredict rs] = Ret [RResults (FailedPrecondition msg) []]).
Proof.
  intros hist s o rs H O. apply after_state in H. destruct H as (m & r0 & R & (T1 & T2 & _) & G).
  pose proof (offers_mirrors _ _ _ _ O R) as (M1 & _ & _).
  rewrite (answers_step1 _ _ _ _ _ R). cbn [step]. unfold in_stroke. rewrite T1, T2, M1.
  split.
  - intros W. unfold predict. destruct (m_params m) as [p|]; [|eexists; reflexivity]. destruct (m_predictor m) as [pr|]; [|eexists; reflexivity].
    destruct (m_last m) as [l|]; [|eexists; reflexivity]. destruct W as [W|[W|W]]; discriminate W.
  - intros (msg & AN). destruct (predict fuel m rs) as [[[m1 s1] out]| |] eqn:P; cbn in AN; try discriminate AN.
    inversion AN; subst. apply predict_inv in P. inversion P; subst.
    match goal with HW : _ \/ _ \/ _ |- _ => destruct HW as [HW|[HW|HW]]; rewrite HW end; [left|right; right|right; left]; reflexivity.
Qed.
(** Otherwise it succeeds, if it returns. *)
Theorem C13_predict_succeeds_exactly : forall hist s o rs r,
  after fuel hist s -> offers hist o -> answers fuel hist [CPredict rs] = Ret r ->
  (ps_params s <> None /\ in_stroke s = true /\ of_now o = true <-> exists out, r = [RResults OkStatus out]).
Proof.
  intros hist s o rs r H O AN. apply after_state in H. destruct H as (m & r0 & R & (T1 & T2 & _) & G).
  pose proof (offers_mirrors _ _ _ _ O R) as (M1 & _ & _).
  rewrite (answers_step1 _ _ _ _ _ R) in AN. cbn [step] in AN. unfold in_stroke. rewrite T1, T2, M1.
  destruct (predict fuel m rs) as [[[m1 s1] out]| |] eqn:P; cbn in AN; try discriminate AN. inversion AN; subst.
  apply predict_inv in P. inversion P; subst.
  - split.
    + intros (W1 & W2 & W3). exfalso. match goal with HW : _ \/ _ \/ _ |- _ => destruct HW as [HW|[HW|HW]]; [apply W1; exact HW|rewrite HW in W3; discriminate W3|rewrite HW in W2; discriminate W2] end.
    + intros (out & EQ). inversion EQ; subst. congruence.
  - split; [eauto|]. intros _.
    repeat match goal with HW : m_params m = _ |- _ => rewrite HW; clear HW | HW : m_predictor m = _ |- _ => rewrite HW; clear HW | HW : m_last m = _ |- _ => rewrite HW; clear HW end.
    split; [discriminate|split; reflexivity].
Qed.

(** The parameters in force decide, unless a kept predictor has been restored. *)
Theorem C13_offer_follows_params : forall hist s o p,
  after fuel hist s -> offers hist o -> ps_params s = Some p ->
  (prediction_on p = true -> of_now o = true) /\ (no_call is_restore hist -> of_now o = prediction_on p).
Proof.
  intros hist s o p H O P. apply after_state in H. destruct H as (m & r0 & R & (T1 & T2 & _) & G).
  pose proof (offers_mirrors _ _ _ _ O R) as (M1 & _ & _). rewrite M1. rewrite T1 in P. split.
  - intros W. destruct (g_on _ G p P W) as [K _]. destruct (m_predictor m); [reflexivity|]. exfalso. apply (make_predictor_on _ W). symmetry. exact K.
  - intros N. assert (PL : plain m) by (eapply plain_run; [exact N|exact plain0|exact R]). unfold plain in PL. rewrite P in PL.
    rewrite <- has_make, <- PL. destruct (m_predictor m); reflexivity.
Qed.

(** ** C14, C17 *)
(** As C14_restore_undoes_partial, with the exact condition on the predictor: there
    is one at the Save, or none is kept from earlier. *)
Theorem C14_restore_undoes : forall hist s o mid mrs,
  after fuel hist s -> offers hist o ->
  answers fuel (hist ++ [CSave]) mid = Ret mrs ->
  no_call is_reset mid -> no_call is_save mid ->
  in_stroke s = false \/ no_accepted_down mid mrs ->
  of_now o = true \/ of_kept o = false ->
  indistinguishable fuel (hist ++ [CSave] ++ mid ++ [CRestore]) (hist ++ [CSave]).
Proof.
  intros hist s o mid mrs H O AN N1 N2 W HY. apply after_state in H. destruct H as (m & r0 & R & T & G).
  pose proof (offers_mirrors _ _ _ _ O R) as (M1 & M2 & _).
  assert (HP : m_predictor m <> None \/ m_saved_predictor m = None).
  { rewrite M1, M2 in HY. destruct HY as [HY|HY]; [left; destruct (m_predictor m); [discriminate|discriminate HY]|right; destruct (m_saved_predictor m); [discriminate HY|reflexivity]]. }
  assert (RS : run fuel modeler0 (hist ++ [CSave]) = Ret (save m, r0 ++ [RVoid])).
  { rewrite run_app, R. reflexivity. }
  rewrite (answers_from _ _ _ _ _ RS) in AN. bind_inv AN. destruct x as [m1 r1]. inversion AN; subst.
  assert (RE : run fuel modeler0 (hist ++ [CSave] ++ mid ++ [CRestore]) = Ret (restore m1, (r0 ++ [RVoid]) ++ mrs ++ [RVoid])).
  { rewrite app_assoc, run_app, RS. cbn. rewrite run_app, E. reflexivity. }
  eapply indist_sim; [exact RE|exact RS|].
  destruct W as [W|W].
  - destruct T as (T1 & T2 & T3). unfold in_stroke in W. rewrite T2 in W.
    assert (L : m_last m = None) by (destruct (m_last m); [discriminate|reflexivity]).
    apply kept0_restore; auto. eapply kept0_run; [apply kept0_save; auto|exact N1|exact N2|exact E].
  - assert (K : kept m m1) by (eapply kept_run; [apply kept_save; auto|exact N1|exact N2|exact E|exact W]).
    rewrite (kept_restore _ _ K HP).
    constructor; cbn; auto using pred_rel_eq.
Qed.
(** And it is exact: in a stroke, if there is no predictor but one is kept from
    earlier, Save and Restore alone change what Predict does. *)
Theorem C14_stale_predictor_changes : forall hist s o rs,
  after fuel hist s -> offers hist o -> ps_params s <> None -> in_stroke s = true ->
  of_now o = false -> of_kept o = true ->
  (exists msg, answers fuel (hist ++ [CSave]) [CPredict rs] = Ret [RResults (FailedPrecondition msg) []]) /\
  (forall msg, answers fuel (hist ++ [CSave] ++ [CRestore]) [CPredict rs] <> Ret [RResults (FailedPrecondition msg) []]).
Proof.
  intros hist s o rs H O P IS N K. pose proof H as AF. apply after_state in H. destruct H as (m & r0 & R & (T1 & T2 & T3) & G).
  pose proof (offers_mirrors _ _ _ _ O R) as (M1 & M2 & M3).
  assert (R1 : run fuel modeler0 (hist ++ [CSave]) = Ret (save m, r0 ++ [RVoid])) by (rewrite run_app, R; reflexivity).
  assert (R2 : run fuel modeler0 (hist ++ [CSave] ++ [CRestore]) = Ret (restore (save m), r0 ++ [RVoid; RVoid])) by (rewrite run_app, R; reflexivity).
  split.
  - rewrite (answers_step1 _ _ _ _ _ R1). cbn [step]. unfold predict. cbn [save m_params m_predictor]. rewrite M1 in N.
    destruct (m_params m); [|eexists; reflexivity]. destruct (m_predictor m); [discriminate N|eexists; reflexivity].
  - intros msg AN. rewrite (answers_step1 _ _ _ _ _ R2) in AN. cbn [step] in AN.
    destruct (predict fuel (restore (save m)) rs) as [[[m1 s1] out]| |] eqn:E; cbn in AN; try discriminate AN. inversion AN; subst.
    apply predict_inv in E. inversion E; subst. unfold restore, save in *. cbn in *.
    rewrite T1 in P. unfold in_stroke in IS. rewrite T2 in IS. rewrite M1 in N. rewrite M2 in K.
    destruct (m_predictor m); [discriminate N|]. destruct (m_saved_predictor m); [|discriminate K]. destruct (m_last m); [|discriminate IS].
    match goal with HW : _ \/ _ \/ _ |- _ => destruct HW as [HW|[HW|HW]]; congruence end.
Qed.
Theorem C17_restore_repeatable : forall hist s o mid mrs mid2 mrs2,
  after fuel hist s -> offers hist o ->
  answers fuel (hist ++ [CSave]) mid = Ret mrs ->
  answers fuel (hist ++ [CSave] ++ mid ++ [CRestore]) mid2 = Ret mrs2 ->
  no_call is_reset (mid ++ mid2) -> no_call is_save (mid ++ mid2) ->
  in_stroke s = false \/ (no_accepted_down mid mrs /\ no_accepted_down mid2 mrs2) ->
  of_now o = true \/ of_kept o = false ->
  indistinguishable fuel (hist ++ [CSave] ++ mid ++ [CRestore] ++ mid2 ++ [CRestore])
                    (hist ++ [CSave] ++ mid ++ [CRestore]).
Proof.
  intros hist s o mid mrs mid2 mrs2 H O A1 A2 N1 N2 W HY.
  unfold no_call in N1, N2. rewrite forallb_app in N1, N2. apply andb_prop in N1, N2.
  destruct N1 as [N11 N12], N2 as [N21 N22].
  assert (A3 : answers fuel (hist ++ [CSave]) (mid ++ [CRestore] ++ mid2) = Ret (mrs ++ [RVoid] ++ mrs2)).
  { rewrite answers_app, A1. cbn [obind]. rewrite answers_app.
    assert (RV : answers fuel ((hist ++ [CSave]) ++ mid) [CRestore] = Ret [RVoid]).
    { apply answers_ret in A1. destruct A1 as (m & rs & m' & R & R').
      assert (R2 : run fuel modeler0 ((hist ++ [CSave]) ++ mid) = Ret (m', rs ++ mrs)) by (rewrite run_app, R; cbn; rewrite R'; reflexivity).
      rewrite (answers_from _ _ _ _ _ R2). reflexivity. }
    rewrite RV. cbn [obind]. rewrite <- !app_assoc, A2. reflexivity. }
  assert (LM : List.length mrs = List.length mid).
  { apply answers_ret in A1. destruct A1 as (m & rs & m' & R & R'). eapply run_length; eauto. }
  eapply indist_trans; [|apply indist_sym; eapply (C14_restore_undoes hist s o mid mrs); eauto; tauto].
  replace (hist ++ [CSave] ++ mid ++ [CRestore] ++ mid2 ++ [CRestore])
    with (hist ++ [CSave] ++ (mid ++ [CRestore] ++ mid2) ++ [CRestore]) by (rewrite <- !app_assoc; reflexivity).
  eapply C14_restore_undoes; eauto.
  - apply no_call_app; [exact N11|]. apply no_call_app; [reflexivity|exact N12].
  - apply no_call_app; [exact N21|]. apply no_call_app; [reflexivity|exact N22].
  - destruct W as [W|[W1 W2]]; [auto|]. right. apply nad_app; auto. cbn. auto.
Qed.

(** ** C18, C19, C20 *)
(** The same for the continuations after a Reset: nothing comes back if there is no
    Restore, or prediction stays enabled, or no predictor has been kept. *)
Definition nothing_stale (o : offer) (p : StrokeModelParams) (cs : list call) : Prop :=
  no_call is_restore cs \/
  (prediction_on p = true /\ no_call disables_prediction cs) \/
  of_kept o = false.

Lemma none_kept : forall (x : option Predictor), has x = false -> x = None.
Proof. intros [x|] H; [discriminate H|reflexivity]. Qed.
Lemma in_force_now : forall m p, good m -> m_params m = Some p -> has (m_predictor m) = prediction_on p ->
  reset_pred (m_predictor m) = make_predictor p.
Proof.
  intros m p G P H. destruct (prediction_on p) eqn:ON; [apply (g_on _ G p P ON)|].
  rewrite (none_kept _ H). symmetry. apply make_predictor_off. exact ON.
Qed.

Theorem C18_reset_as_new : forall hist o p,
  offers hist o -> answers fuel hist [CReset p] = Ret [RStatus OkStatus] ->
  indistinguishable_by (nothing_stale o p) fuel (hist ++ [CReset p]) [CReset p].
Proof.
  intros hist o p O H cs W. apply answers1 in H. destruct H as (m & rs & m' & r0 & R & S & Q & R2).
  pose proof (offers_mirrors _ _ _ _ O R) as (M1 & M2 & M3).
  inversion Q; subst. cbn in S. unfold reset_params in S.
  destruct (validate_params p) eqn:V; inversion S; subst.
  assert (RN : run fuel modeler0 [CReset p] = Ret (fresh p, [RStatus OkStatus])).
  { cbn. unfold fresh, reset_params. rewrite V. reflexivity. }
  destruct W as [W|[[W1 W2]|W]].
  - eapply (indist_simN fuel _ _ _ _ _ _ R2 RN); [|exact W].
    apply idle_simN; cbn; auto. apply make_predictor_reset.
  - eapply (indist_sim_false fuel _ _ _ _ _ _ R2 RN); [|exact W2].
    apply idle_sim_false; cbn; auto. apply make_predictor_reset.
  - eapply (indist_sim fuel _ _ _ _ _ _ R2 RN).
    rewrite M2 in W. apply none_kept in W.
    rewrite (fresh_eq p V). constructor; cbn; auto; try congruence.
    intros [K|[K _]]; congruence.
Qed.

(** The same for a modeler that has not just been configured: its predictor carries
    the last stroke, so it must not be kept and brought back either. *)
Definition nothing_stale_at_all (o : offer) (p : StrokeModelParams) (cs : list call) : Prop :=
  no_call is_restore cs \/
  (prediction_on p = true /\ no_call disables_prediction cs) \/
  (of_kept o = false /\ prediction_on p = false).

Theorem C19_reset_keep_equals_reset : forall hist s o p,
  after fuel hist s -> offers hist o -> ps_params s = Some p -> of_now o = prediction_on p ->
  indistinguishable_by (nothing_stale_at_all o p) fuel (hist ++ [CResetKeep]) (hist ++ [CReset p]).
Proof.
  intros hist s o p H O P IF cs W. apply after_state in H. destruct H as (m & r0 & R & (T1 & T2 & T3) & G).
  pose proof (offers_mirrors _ _ _ _ O R) as (M1 & M2 & M3).
  assert (MP : m_params m = Some p) by congruence. rewrite M1 in IF.
  pose proof (in_force_now _ _ G MP IF) as PR.
  assert (V : validate_params p = OkStatus) by (apply (g_valid _ G); assumption).
  pose proof (run_snoc _ _ _ _ CResetKeep R) as R1. pose proof (run_snoc _ _ _ _ (CReset p) R) as R2.
  cbn in R1, R2. unfold reset_keep in R1. unfold reset_params in R2. rewrite MP in R1. rewrite V in R2. cbn in R1, R2.
  destruct W as [W|[[W1 W2]|[W ON]]].
  - eapply (indist_simN fuel _ _ _ _ _ _ R1 R2); [|exact W].
    constructor; cbn; auto; try congruence. rewrite PR. symmetry. apply make_predictor_reset.
  - eapply (indist_sim_false fuel _ _ _ _ _ _ R1 R2); [|exact W2].
    constructor; cbn; try congruence; try (intros [K|K]; congruence); try (intros [K|[K _]]; congruence); try reflexivity.
    rewrite PR. symmetry. apply make_predictor_reset.
  - eapply (indist_sim fuel _ _ _ _ _ _ R1 R2).
    rewrite M2 in W. apply none_kept in W. rewrite ON in IF. apply none_kept in IF.
    constructor; cbn; auto; try congruence.
    + rewrite IF. symmetry. apply make_predictor_off. exact ON.
    + intros [K|[K _]]; congruence.
Qed.

Theorem C20_strokes_independent : forall hist s o p,
  after fuel hist s -> offers hist o -> ps_params s = Some p -> in_stroke s = false ->
  of_now o = prediction_on p ->
  indistinguishable_by (fun cs => nothing_stale_at_all o p cs /\ (ps_saved s = None \/ no_call is_restore cs)) fuel
    hist [CReset p].
Proof.
  intros hist s o p H O P NS IF cs [W SV]. apply after_state in H. destruct H as (m & r0 & R & (T1 & T2 & T3) & G).
  pose proof (offers_mirrors _ _ _ _ O R) as (M1 & M2 & M3).
  assert (MP : m_params m = Some p) by congruence. rewrite M1 in IF.
  pose proof (in_force_now _ _ G MP IF) as PR.
  assert (V : validate_params p = OkStatus) by (apply (g_valid _ G); assumption).
  assert (L : m_last m = None) by (unfold in_stroke in NS; rewrite T2 in NS; destruct (m_last m); [discriminate|reflexivity]).
  assert (RN : run fuel modeler0 [CReset p] = Ret (fresh p, [RStatus OkStatus])).
  { cbn. unfold fresh, reset_params. rewrite V. reflexivity. }
  assert (NR : no_call is_restore cs -> answers fuel hist cs = answers fuel [CReset p] cs).
  { intros N. eapply (indist_simN fuel _ _ _ _ _ _ R RN); [|exact N]. apply idle_simN; auto. }
  destruct SV as [SV|SV]; [|auto].
  assert (SA : m_save_active m = false) by (rewrite SV in T3; destruct (m_save_active m); [discriminate|reflexivity]).
  destruct W as [W|[[W1 W2]|[W ON]]]; [auto| |].
  - eapply (indist_sim_false fuel _ _ _ _ _ _ R RN); [|exact W2]. apply idle_sim_false; auto.
  - eapply (indist_sim fuel _ _ _ _ _ _ R RN).
    rewrite M2 in W. apply none_kept in W. rewrite ON in IF. apply none_kept in IF. apply idle_sim_true; auto.
Qed.
End Offer.
