(** * C45, C46, C51 in exact arithmetic: every call returns, and the next input of a
      stroke is accepted unless it is too far away in time. *)
From Coq Require Import ZArith Bool List Reals Lra Lia Psatz.
From Flocq Require Import Core.Raux.
From Verif Require Export RFacts NoUB Props_Range.
Import ListNotations.
Open Scope R_scope.

#[local] Existing Instance real_arith.

(** ** Number of steps *)
Lemma R_to_int_fits : forall z, (0 <= z)%Z -> exists y, R_to_int (std_dmin (A := real_arith) (IZR z) (IZR INT_MAX)) = Some y /\ y = Z.min z INT_MAX.
Proof.
  intros z L. unfold R_to_int, std_dmin. rsimp. destruct (Rltb (IZR INT_MAX) (IZR z)) eqn:E; rewrite Ztrunc_IZR.
  - apply Rltb_true, lt_IZR in E. exists INT_MAX. split; [reflexivity|lia].
  - apply Rltb_false, le_IZR in E. rewrite (proj2 (Z.leb_le INT_MIN z)), (proj2 (Z.leb_le z INT_MAX)); [|exact E|unfold INT_MIN; lia].
    exists z. split; [reflexivity|lia].
Qed.
Lemma Zceil_ge0 : forall x, 0 <= x -> (0 <= Zceil x)%Z.
Proof. intros x L. rewrite <- (Zceil_IZR 0). apply Zceil_le. exact L. Qed.

Lemma turn_angle_some : forall tip a b pp, exists th, turn_angle tip a b pp = Some th /\ 0 <= th <= PI.
Proof.
  intros tip a b pp. unfold turn_angle, absolute_angle_to, vfinite, fisfinite. rsimp. cbn [negb andb orb].
  pose proof PI_RGT_0. destruct (_ || _); [exists 0; split; [reflexivity|lra]|].
  eexists. split; [reflexivity|]. apply acos_bound.
Qed.

Lemma max_angle_R : forall p : StrokeModelParams, validate_params p = OkStatus ->
  sp_max_angle (p_sampling p) = -1 \/ 0 < sp_max_angle (p_sampling p).
Proof.
  intros p V. destruct (validate_params_parts p V) as (_ & _ & VS & _).
  unfold validate_sampling in VS. do 3 (apply and_then_ok in VS; destruct VS as [_ VS]).
  destruct (Z.ltb _ _); [discriminate VS|]. apply and_then_ok in VS. destruct VS as [_ VS]. rsimp.
  destruct (Reqb (sp_max_angle (p_sampling p)) (IZR (-1))) eqn:E.
  - left. apply Reqb_true in E. exact E.
  - cbn [negb] in VS. apply and_then_ok in VS. destruct VS as [VS _]. right. eapply gt0_d_R. exact VS.
Qed.

(** The number of steps is well defined; it is refused iff it exceeds the limit. *)
Lemma steps_total : forall tip a b (p : StrokeModelParams), validate_params p = OkStatus -> i_time a <= i_time b ->
  exists n, number_of_steps tip a b (p_sampling p) (p_position p) =
    (if Z.ltb (sp_max_outputs (p_sampling p)) n then Ret (IErr (InvalidArgument msg_too_far)) else Ret (IOk n)) /\
    (Z.min (Zceil ((i_time b - i_time a) * sp_rate (p_sampling p))) INT_MAX <= n)%Z /\
    ((sp_max_angle (p_sampling p) = -1 \/ PI / sp_max_angle (p_sampling p) <= IZR (sp_max_outputs (p_sampling p))) ->
     (i_time b - i_time a) * sp_rate (p_sampling p) <= IZR (sp_max_outputs (p_sampling p)) ->
     (n <= sp_max_outputs (p_sampling p))%Z).
Proof.
  intros tip a b p V L. destruct (valid_R p V) as (_ & _ & RT & _).
  unfold number_of_steps. rsimp. fold (turn_angle tip a b (p_position p)).
  destruct (turn_angle_some tip a b (p_position p)) as (th & -> & T1 & T2).
  set (x := (i_time b - i_time a) * sp_rate (p_sampling p)).
  assert (X : 0 <= x) by (apply Rmult_le_pos; [apply Rle_minus in L; lra|lra]).
  assert (X' : x <= IZR (sp_max_outputs (p_sampling p)) -> (Zceil x <= sp_max_outputs (p_sampling p))%Z).
  { intros Q. apply Zceil_glb. exact Q. }
  destruct (R_to_int_fits (Zceil x) (Zceil_ge0 _ X)) as (z & -> & ->). cbn [to_int].
  destruct (max_angle_R p V) as [MA|MA].
  - rewrite MA. replace (Rltb 0 (-1)) with false by (symmetry; apply Rltb_false; lra).
    eexists. split; [reflexivity|]. split; [lia|]. intros _ Q. specialize (X' Q). lia.
  - replace (Rltb 0 (sp_max_angle (p_sampling p))) with true by (symmetry; apply Rltb_true; exact MA).
    assert (Y : 0 <= th / sp_max_angle (p_sampling p)) by (apply Rmult_le_pos; [exact T1|left; apply Rinv_0_lt_compat; exact MA]).
    destruct (R_to_int_fits (Zceil (th / sp_max_angle (p_sampling p))) (Zceil_ge0 _ Y)) as (z2 & -> & ->). cbn [to_int].
    eexists. split; [reflexivity|]. split; [destruct (Z.ltb_spec (Z.min (Zceil x) INT_MAX) (Z.min (Zceil (th / sp_max_angle (p_sampling p))) INT_MAX)); lia|].
    intros Q1 Q2. specialize (X' Q2). destruct Q1 as [Q1|Q1]; [lra|].
    assert (Z2 : (Zceil (th / sp_max_angle (p_sampling p)) <= sp_max_outputs (p_sampling p))%Z).
    { apply Zceil_glb. eapply Rle_trans; [|exact Q1]. apply Rmult_le_compat_r; [left; apply Rinv_0_lt_compat; exact MA|exact T2]. }
    destruct (Z.ltb_spec (Z.min (Zceil x) INT_MAX) (Z.min (Zceil (th / sp_max_angle (p_sampling p))) INT_MAX)); lia.
Qed.

Lemma steps_noub_R : forall tip a b (p : StrokeModelParams), validate_params p = OkStatus ->
  validate_input a = OkStatus -> validate_input b = OkStatus -> dltb (i_time b) (i_time a) = false ->
  noub (number_of_steps tip a b (p_sampling p) (p_position p)).
Proof.
  intros tip a b p V _ _ DL. apply Rltb_false in DL. destruct (steps_total tip a b p V DL) as (n & -> & _).
  destruct (Z.ltb _ _); discriminate.
Qed.
Lemma timeout_noub_R : forall (p : StrokeModelParams) i, validate_params p = OkStatus -> wp_enabled (p_wobble p) = true ->
  validate_input i = OkStatus -> dltb (i_time i) (dsub (i_time i) (wp_timeout (p_wobble p))) = false.
Proof.
  intros p i V W _. destruct (validate_params_parts p V) as (VW & _). unfold validate_wobble in VW. rewrite W in VW.
  cbn [negb] in VW. apply and_then_ok in VW. destruct VW as [VW _]. apply ge0_d_R in VW.
  rsimp. apply Rltb_false. lra.
Qed.

(** ** Angles *)
Definition fine_R (o : R) : Prop := o <= 2 * PI.
(** An orientation up to 2 pi (a negative one is "unknown"). *)
Definition orientation_ok (i : Input) : Prop := i_orient i <= 2 * PI.

Lemma norm_up_R : forall fuel a, - (2 * PI) <= a -> exists b, norm_up (A := real_arith) (S fuel) a = Ret b /\ 0 <= b /\
  (0 <= a -> b = a) /\ (a < 0 -> b = a + 2 * PI).
Proof.
  intros fuel a L. pose proof PI_RGT_0. cbn [norm_up]. unfold twoPi. rsimp. destruct (Rltb a 0) eqn:E.
  - apply Rltb_true in E. destruct fuel as [|fuel]; cbn [norm_up]; rsimp;
      (replace (Rltb (a + 2 * PI) 0) with false by (symmetry; apply Rltb_false; lra));
      eexists; (split; [reflexivity|]); lra.
  - apply Rltb_false in E. eexists; split; [reflexivity|]. lra.
Qed.
Lemma norm_down_R : forall fuel a, a <= 4 * PI -> exists b, norm_down (A := real_arith) (S fuel) a = Ret b /\ b <= 2 * PI /\
  (0 <= a -> 0 <= b).
Proof.
  intros fuel a L. pose proof PI_RGT_0. cbn [norm_down]. unfold twoPi. rsimp. destruct (Rltb (2 * PI) a) eqn:E.
  - apply Rltb_true in E. destruct fuel as [|fuel]; cbn [norm_down]; unfold twoPi; rsimp;
      (replace (Rltb (2 * PI) (a - 2 * PI)) with false by (symmetry; apply Rltb_false; lra));
      eexists; (split; [reflexivity|]); lra.
  - apply Rltb_false in E. eexists; split; [reflexivity|]. lra.
Qed.
Lemma normalize_R : forall fuel a, - (2 * PI) <= a <= 4 * PI ->
  exists b, normalize_angle (A := real_arith) (S fuel) a = Ret b /\ 0 <= b <= 2 * PI.
Proof.
  intros fuel a L. pose proof PI_RGT_0. unfold normalize_angle.
  destruct (norm_up_R fuel a) as (b & B & B0 & B1 & B2); [lra|]. rewrite B. cbn [obind].
  assert (b <= 4 * PI) by (destruct (Rlt_le_dec a 0) as [Q|Q]; [rewrite (B2 Q)|rewrite (B1 Q)]; lra).
  destruct (norm_down_R fuel b H0) as (c & C & C0 & C1). exists c. split; [exact C|]. split; [apply C1; exact B0|exact C0].
Qed.
Lemma interp_angle_R : forall fuel s e x, 0 <= s <= 2 * PI -> 0 <= e <= 2 * PI ->
  exists b, interp_angle (A := real_arith) (S fuel) s e x = Ret b /\ 0 <= b <= 2 * PI.
Proof.
  intros fuel s e x HS HE. pose proof PI_RGT_0. unfold interp_angle.
  destruct (normalize_R fuel s) as (s' & S1 & S2); [lra|]. rewrite S1. cbn [obind].
  destruct (normalize_R fuel e) as (e' & E1 & E2); [lra|]. rewrite E1. cbn [obind]. unfold twoPi. rsimp.
  apply normalize_R.
  match goal with |- context [interp_f s' ?z x] => set (e2 := z) end.
  assert (Q : - (2 * PI) <= e2 <= 4 * PI).
  { unfold e2. destruct (Rltb _ _); [lra|]. destruct (Rltb _ _); lra. }
  destruct (Rle_lt_dec s' e2) as [C|C].
  - pose proof (interp_f_between s' e2 x C). lra.
  - pose proof (interp_f_between' s' e2 x (Rlt_le _ _ C)). lra.
Qed.

Lemma interp_result_total : forall fuel (a b : Result) x, fine_R (r_orient a) -> fine_R (r_orient b) ->
  exists r, interp_result (S fuel) a b x = Ret r /\ fine_R (r_orient r).
Proof.
  intros fuel a b x HA HB. pose proof PI_RGT_0. unfold fine_R in *. unfold interp_result. rsimp.
  destruct (Rltb (r_orient a) 0) eqn:LA; [eexists; split; [reflexivity|]; unfold fm1; cbn [r_orient]; rsimp; lra|].
  destruct (Rltb (r_orient b) 0) eqn:LB; [eexists; split; [reflexivity|]; unfold fm1; cbn [r_orient]; rsimp; lra|].
  apply Rltb_false in LA, LB. cbn [orb].
  destruct (interp_angle_R fuel (r_orient a) (r_orient b) x (conj LA HA) (conj LB HB)) as (o & O1 & O2).
  rewrite O1. cbn [obind]. eexists. split; [reflexivity|]. apply O2.
Qed.

Definition SR (st : SState) : Prop := Forall (fun r => fine_R (r_orient r)) (s_raw st).
Lemma SR_step : forall sm i pos sm',
  orientation_ok i -> validate_stylus (sm_params sm) = OkStatus -> (SR (sm_state sm) \/ sm_state sm = sstate0) ->
  stylus_update sm pos (i_time i) (i_pressure i) (i_tilt i) (i_orient i) = Ret sm' -> SR (sm_state sm').
Proof.
  intros sm i pos sm' HI V H U. unfold SR.
  destruct (raw_step _ _ _ _ _ _ _ V U) as [(K & _)|(NE & x & pre & EQ & _ & _ & _ & _ & PX)]; [rewrite K; constructor|].
  assert (FA : Forall (fun r : Result => fine_R (r_orient r)) (s_raw (sm_state sm) ++ [x])).
  { apply Forall_app. split.
    - destruct H as [H|H]; [exact H|rewrite H; constructor].
    - constructor; [rewrite PX; exact HI|constructor]. }
  rewrite EQ in FA. apply Forall_app in FA. apply FA.
Qed.
Lemma query_total : forall fuel sm tip n, SR (sm_state sm) ->
  exists r, stylus_query (S fuel) sm tip n = Ret r /\ fine_R (r_orient r).
Proof.
  intros fuel sm tip n H. unfold SR in H. rewrite Forall_forall in H. pose proof PI_RGT_0.
  assert (M1 : fine_R fm1) by (unfold fine_R, fm1; rsimp; lra).
  assert (W : forall res : Result, fine_R (r_orient res) -> fine_R (r_orient (with_flags (sm_state sm) (t_time tip) res))).
  { intros res F. cbn. destruct (s_unk_orient _); [exact M1|exact F]. }
  destruct (query_eq (S fuel) sm tip n) as [[_ K]|(_ & o & E & [(p & P & ->)|(_ & x & IN & ->)])].
  - rewrite K. eexists. split; [reflexivity|exact M1].
  - pose proof (query_projection_in _ _ _ _ P) as [IA IB].
    destruct (interp_result_total fuel _ _ (pj_ratio p) (H _ IA) (H _ IB)) as (r & R & FR).
    rewrite E, R. cbn [obind]. eexists. split; [reflexivity|auto].
  - rewrite E. cbn [obind]. eexists. split; [reflexivity|]. apply W. apply H. exact IN.
Qed.
Lemma model_stylus_total : forall fuel tips sm lm pt, SR (sm_state sm) -> nodiv (model_stylus (S fuel) tips sm lm pt).
Proof.
  intros fuel tips sm lm pt H. unfold model_stylus. generalize (loop_get lm). revert lm pt.
  induction tips as [|tip rest IH]; intros lm pt v; [discriminate|]. cbn [model_stylus_loop].
  destruct (query_total fuel sm tip (get_stroke_normal tip pt) H) as (q & Q & FQ). rewrite Q. cbn [obind].
  destruct (interp_result_total fuel q (make_result tip q) v FQ FQ) as (r & R & _). rewrite R. cbn [obind].
  destruct (loop_update lm (r_vel r) (t_time tip)) as [lm' v']. apply nodiv_bind; [apply IH|].
  intros [lm'' out] _. discriminate.
Qed.

(** ** Every call returns *)
(** Fewer than INT_MAX calls, each Reset limiting the outputs per call below
    INT_MAX, all orientations at most 2 pi, and no Kalman prediction: no Reset
    asks for it, or Predict is not called. *)
Definition not_kalman (c : call) : Prop :=
  match c with CReset p => match p_prediction p with PredKalman _ => False | _ => True end | _ => True end.
Record tame (hist : list call) : Prop := mkTame {
  tm_short : (Z.of_nat (List.length hist) <= INT_MAX)%Z;
  tm_calls : Forall (fun c => match c with
    | CReset p => (sp_max_outputs (p_sampling p) < INT_MAX)%Z
    | CUpdate i _ => i_orient i <= 2 * PI
    | _ => True end) hist;
  tm_kalman : Forall not_kalman hist \/ no_call is_predict hist
}.

Lemma tame_run : forall fuel hist, (1 <= fuel)%nat -> tame hist -> exists m rs, run fuel modeler0 hist = Ret (m, rs).
Proof.
  intros [|fuel] hist HF [T1 T2 T3]; [lia|].
  assert (ND : nodiv (run (S fuel) modeler0 hist)).
  { eapply (run_nodiv (S fuel) orientation_ok SR SR_step); [|exact good0|exact cons0| |].
    - intros tips sm lm pt. apply model_stylus_total.
    - split; [constructor|discriminate].
    - eapply Forall_impl; [|exact T2]. intros [] H; try exact Logic.I. exact H. }
  assert (NU : noub (run (S fuel) modeler0 hist)).
  { destruct T3 as [T3|T3].
    - apply (run_noub (S fuel) true steps_noub_R timeout_noub_R hist 0); [apply safe0| |lia].
      rewrite Forall_forall in *. intros c IN. specialize (T2 c IN). specialize (T3 c IN).
      destruct c; try exact Logic.I; cbn in *; [|reflexivity].
      split; [exact T2|]. intros _. unfold wants_kalman. destruct (p_prediction p); tauto.
    - apply (run_noub (S fuel) false steps_noub_R timeout_noub_R hist 0); [apply safe0| |lia].
      unfold no_call in T3. rewrite forallb_forall in T3. rewrite Forall_forall in *. intros c IN. specialize (T2 c IN). specialize (T3 c IN).
      destruct c; try exact Logic.I; cbn in *; [|discriminate T3]. split; [exact T2|discriminate]. }
  destruct (run (S fuel) modeler0 hist) as [[m rs]|k|]; [eauto|exfalso; eapply NU; reflexivity|exfalso; apply ND; reflexivity].
Qed.

Theorem C46_every_call_returns : forall (A := real_arith) fuel hist,
  (1 <= fuel)%nat -> tame hist ->
  exists replies, answers fuel [] hist = Ret replies /\ List.length replies = List.length hist.
Proof.
  intros A fuel hist HF T. subst A. destruct (tame_run fuel hist HF T) as (m & rs & R). exists rs.
  unfold answers. cbn [run obind]. rewrite R. split; [reflexivity|]. eapply run_length. exact R.
Qed.

(** ** C51 *)
Lemma tame_call : forall fuel hist s c, (1 <= fuel)%nat -> tame (hist ++ [c]) -> after fuel hist s ->
  exists m r0 m' r, run fuel modeler0 hist = Ret (m, r0) /\ tracks s m /\ good m /\ cons m /\
    step fuel m c = Ret (m', r) /\ answers fuel hist [c] = Ret [r].
Proof.
  intros fuel hist s c HF T AF. destruct (after_full fuel hist s AF) as (m & r0 & R & TR & G & C).
  destruct (tame_run fuel _ HF T) as (m' & rs & R'). rewrite run_app, R in R'. cbn [obind run] in R'.
  destruct (step fuel m c) as [[m1 r]| |] eqn:S; cbn [obind] in R'; try discriminate R'.
  exists m, r0, m1, r. do 5 (split; [assumption || reflexivity|]). unfold answers. rewrite R. cbn [obind run]. rewrite S. reflexivity.
Qed.

Theorem C51_next_input_accepted : forall (A := real_arith) fuel hist s p i0 i rs,
  (1 <= fuel)%nat -> tame (hist ++ [CUpdate i rs]) -> after fuel hist s ->
  ps_params s = Some p -> ps_last s = Some i0 ->
  (i_event i = EMove \/ i_event i = EUp) -> i <> i0 -> i_time i0 <= i_time i ->
  (i_time i - i_time i0) * sp_rate (p_sampling p) <= IZR (sp_max_outputs (p_sampling p)) ->
  (sp_max_angle (p_sampling p) = -1 \/ PI / sp_max_angle (p_sampling p) <= IZR (sp_max_outputs (p_sampling p))) ->
  exists out, answers fuel hist [CUpdate i rs] = Ret [RResults OkStatus (rs ++ out)].
Proof.
  intros A fuel hist s p i0 i rs HF T AF P L EV NE TI ST MA. subst A.
  destruct (tame_call _ _ _ _ HF T AF) as (m & r0 & m' & r & R & TR & G & C & S & AN).
  destruct TR as (T1 & T2 & _). rewrite P in T1. rewrite L in T2. symmetry in T1.
  destruct (m_last m) as [lst|] eqn:ML; [|discriminate T2]. injection T2 as E0.
  pose proof (g_valid _ G p T1) as VP.
  cbn [step] in S. destruct (update fuel m i rs) as [[[m1 st] rs1]| |] eqn:U; cbn [obind] in S; try discriminate S.
  injection S as <- <-. rewrite AN. pose proof U as U0. apply update_inv in U0. destruct U0 as (out & -> & _). exists out.
  do 3 f_equal.
  assert (V : validate_input i = OkStatus) by (unfold validate_input, validate_finite_f, validate_finite_d; destruct EV as [-> | ->]; reflexivity).
  assert (D : input_eqb (li_input lst) i = false).
  { rewrite <- E0. destruct (input_eqb i0 i) eqn:Q; [|reflexivity]. exfalso. apply NE. unfold input_eqb, veqb in Q. rsimp.
    repeat match goal with H : (_ && _) = true |- _ => apply andb_prop in H; destruct H end.
    repeat match goal with H : Reqb _ _ = true |- _ => apply Reqb_true in H end.
    destruct i as [e1 [x1 y1] t1 p1 ti1 o1], i0 as [e2 [x2 y2] t2 p2 ti2 o2]. cbn in *. subst.
    f_equal. destruct e1, e2; try discriminate; try reflexivity; destruct EV; discriminate. }
  assert (DL : dltb (i_time i) (i_time (li_input lst)) = false) by (rewrite <- E0; apply Rltb_false; exact TI).
  unfold update in U. rewrite T1, V, ML, D, DL in U.
  destruct (steps_total (pm_state (m_pos m)) (li_input lst) i p VP) as (n & NS & _ & NB); [rewrite <- E0; exact TI|].
  rewrite <- E0 in NB. specialize (NB MA ST). rewrite (proj2 (Z.ltb_ge _ _)) in NS by exact NB.
  destruct EV as [EV|EV]; rewrite EV in U.
  - unfold process_move in U. rewrite ML in U. bind_inv U. destruct x as [w c]. bind_inv U. rewrite NS in U. cbn [obind] in U.
    bind_inv U. destruct x0 as [tip tips]. bind_inv U. bind_inv U. destruct x1 as [lm o]. injection U as _ <- _. reflexivity.
  - unfold process_up in U. rewrite ML, NS in U. cbn [obind] in U.
    bind_inv U. destruct x as [tip tips]. destruct (model_end_of_stroke _ _ _ _ _ _) as [tip2 tips2].
    bind_inv U. bind_inv U. destruct x0 as [lm o]. injection U as _ <- _. reflexivity.
Qed.

Theorem C51_down_accepted : forall (A := real_arith) fuel hist s p i rs,
  (1 <= fuel)%nat -> tame (hist ++ [CUpdate i rs]) -> after fuel hist s ->
  ps_params s = Some p -> ps_last s = None -> i_event i = EDown ->
  answers fuel hist [CUpdate i rs] = Ret [RResults OkStatus (rs ++ [echo i])].
Proof.
  intros A fuel hist s p i rs HF T AF P L EV. subst A.
  destruct (tame_call _ _ _ _ HF T AF) as (m & r0 & m' & r & R & TR & G & C & S & AN).
  destruct TR as (T1 & T2 & _). rewrite P in T1. rewrite L in T2. symmetry in T1.
  destruct (m_last m) as [lst|] eqn:ML; [discriminate T2|].
  cbn [step] in S. destruct (update fuel m i rs) as [[[m1 st] rs1]| |] eqn:U; cbn [obind] in S; try discriminate S.
  injection S as <- <-. rewrite AN.
  assert (V : validate_input i = OkStatus) by (unfold validate_input, validate_finite_f, validate_finite_d; rewrite EV; reflexivity).
  unfold update in U. rewrite T1, V, ML, EV in U. unfold process_down in U. rewrite ML in U.
  bind_inv U. bind_inv U. injection U as _ <- <-. reflexivity.
Qed.

Theorem C51_too_far_rejected : forall (A := real_arith) fuel hist s p i0 i rs st out,
  after fuel hist s -> ps_params s = Some p -> ps_last s = Some i0 ->
  (i_event i = EMove \/ i_event i = EUp) ->
  (sp_max_outputs (p_sampling p) < INT_MAX)%Z ->
  IZR (sp_max_outputs (p_sampling p)) < (i_time i - i_time i0) * sp_rate (p_sampling p) ->
  answers fuel hist [CUpdate i rs] = Ret [RResults st out] ->
  is_error st /\ out = rs.
Proof.
  intros A fuel hist s p i0 i rs st out AF P L EV MX FAR AN. subst A.
  destruct (accepted_update fuel _ _ _ _ _ _ AF AN) as (m & r0 & m' & o & _ & (T1 & T2 & _) & G & _ & -> & U & _).
  rewrite P in T1. rewrite L in T2. symmetry in T1.
  destruct (m_last m) as [lst|] eqn:ML; [|discriminate T2]. injection T2 as E0.
  assert (K : forall tip n, number_of_steps tip (li_input lst) i (p_sampling p) (p_position p) = Ret (IOk n) -> False).
  { intros tip n NS. apply steps_R in NS. destruct NS as (N1 & N2 & _). rewrite <- E0 in N1.
    assert (Zceil ((i_time i - i_time i0) * sp_rate (p_sampling p)) <= sp_max_outputs (p_sampling p))%Z by lia.
    pose proof (Zceil_ub ((i_time i - i_time i0) * sp_rate (p_sampling p))). apply IZR_le in H. lra. }
  unfold is_error.
  destruct U as [st N TR|q sm pred MP VI EV' ML' SU UP|q last w cc sm e MP VI EV' ML' IE DL WU SU NS NE
      |q last w cc sm k tip tips pred lm out MP VI EV' ML' IE DL WU SU NS UA UP MS
      |q last k tip1 tips1 tip2 tips2 sm lm out MP VI EV' ML' IE DL NS UA ME SU MS].
  - split; [exact N|apply app_nil_r].
  - congruence.
  - split; [exact NE|apply app_nil_r].
  - exfalso. assert (q = p) by congruence. assert (last = lst) by congruence. subst. eapply K; exact NS.
  - exfalso. assert (q = p) by congruence. assert (last = lst) by congruence. subst. eapply K; exact NS.
Qed.
