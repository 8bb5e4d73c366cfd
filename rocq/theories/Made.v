(** * Where results come from, given an invariant of the stylus component, for
      every arithmetic; and which parts of the code cannot loop forever. *)
From Verif Require Export Props_Stylus.
From Coq Require Import Lia.

Section Made.
Context {A : Arith}.
Variable fuel : nat.

Section Inv.
Variable I : Input -> Prop.
Variable S : SState -> Prop.
Hypothesis S_step : forall sm i pos sm',
  I i -> validate_stylus (sm_params sm) = OkStatus -> (S (sm_state sm) \/ sm_state sm = sstate0) ->
  stylus_update sm pos (i_time i) (i_pressure i) (i_tilt i) (i_orient i) = Ret sm' -> S (sm_state sm').

Lemma update_made : forall hist m r0 i rs out,
  run fuel modeler0 hist = Ret (m, r0) -> stylus_ok S m -> I i -> i_event i <> EDown ->
  answers fuel hist [CUpdate i rs] = Ret [RResults OkStatus (rs ++ out)] ->
  exists p sm, m_params m = Some p /\ S (sm_state sm) /\ sm_params sm = p_stylus p /\
    Forall (made_from fuel sm (pp_loop (p_position p))) out.
Proof.
  intros hist m r0 i rs out R SO II ND AN.
  apply answers1 in AN. destruct AN as (m1 & r1 & m' & r & R1 & ST & Q & _).
  rewrite R in R1. inversion R1; subst m1 r1. inversion Q; subst r. clear R1 Q.
  cbn [step] in ST. bind_inv ST. destruct x as [[m2 s2] rs2]. inversion ST; subst m2 s2 rs2. clear ST.
  apply update_inv in E. destruct E as (out2 & EO & U). apply app_inv_head in EO. subst out2.
  pose proof (cons_run _ _ _ _ _ cons0 R) as C. pose proof (good_run _ _ _ _ _ good0 R) as G.
  destruct (i_event i) eqn:EV; [congruence| | |].
  - destruct (upd_move fuel m i m' out U EV) as (p & last & w & cc & sm & n & tip & tips & pred & lm & MP & _ & ML & _ & _ & SU & _ & _ & _ & MS & _).
    destruct (C p MP) as (_ & _ & C3 & C4); [left; congruence|].
    apply model_stylus_made in MS. rewrite C4 in MS. exists p, sm. split; [exact MP|].
    split; [|split; [apply stylus_update_params in SU; destruct SU as [-> _]; exact C3|exact MS]].
    eapply S_step; [exact II| | |exact SU]; [exact (stylus_valid_live m p last G C MP ML)|left; apply SO].
  - destruct (upd_up fuel m i m' out U EV) as (p & last & n & tip1 & tips1 & tip2 & tips2 & sm & lm & MP & _ & ML & _ & _ & _ & _ & SU & MS & _).
    destruct (C p MP) as (_ & _ & C3 & C4); [left; congruence|].
    apply model_stylus_made in MS. rewrite C4 in MS. exists p, sm. split; [exact MP|].
    split; [|split; [apply stylus_update_params in SU; destruct SU as [-> _]; exact C3|exact MS]].
    eapply S_step; [exact II| | |exact SU]; [exact (stylus_valid_live m p last G C MP ML)|left; apply SO].
  - exfalso. eapply upd_other; eassumption.
Qed.

Lemma predict_made : forall hist m r0 rs out,
  run fuel modeler0 hist = Ret (m, r0) -> stylus_ok S m ->
  answers fuel hist [CPredict rs] = Ret [RResults OkStatus out] ->
  exists p sm, m_params m = Some p /\ S (sm_state sm) /\ sm_params sm = p_stylus p /\
    Forall (made_from fuel sm (pp_loop (p_position p))) out.
Proof.
  intros hist m r0 rs out R SO AN.
  apply answers1 in AN. destruct AN as (m1 & r1 & m' & r & R1 & ST & Q & _).
  rewrite R in R1. inversion R1; subst m1 r1. inversion Q; subst r. clear R1 Q.
  cbn [step] in ST. bind_inv ST. destruct x as [[m2 s2] rs2]. inversion ST; subst m2 s2 rs2. clear ST.
  apply predict_inv in E. destruct (prd_ok fuel m m' out E) as (p & pr & last & tips & lm & MP & MR & ML & PC & MS & _).
  pose proof (cons_run _ _ _ _ _ cons0 R) as C. destruct (C p MP) as (_ & _ & C3 & C4); [left; congruence|].
  apply model_stylus_made in MS. rewrite C4 in MS. exists p, (m_stylus m). split; [exact MP|].
  split; [apply SO|]. split; [exact C3|exact MS].
Qed.

(** The state after an accepted Down and calls whose inputs all satisfy [I]. *)
Lemma since_down_ok : forall h0 d rs0 out0 mid m r,
  i_event d = EDown -> I d -> answers fuel h0 [CUpdate d rs0] = Ret [RResults OkStatus out0] ->
  Forall (call_ok I) mid ->
  run fuel modeler0 (h0 ++ CUpdate d rs0 :: mid) = Ret (m, r) -> stylus_ok S m.
Proof.
  intros h0 d rs0 out0 mid m r ED ID AN F R.
  apply answers1 in AN. destruct AN as (m1 & r1 & m' & r' & R1 & ST & Q & _). inversion Q; subst r'.
  rewrite run_app, R1 in R. cbn [obind] in R. cbn [run] in R. rewrite ST in R. cbn [obind] in R.
  bind_inv R. destruct x as [m2 rs2]. bind_inv E. destruct x as [m3 rs3]. inversion E; subst. inversion R; subst.
  pose proof (good_run _ _ _ _ _ good0 R1) as G1.
  eapply (stylus_ok_run fuel I S S_step);
    [eapply good_step; eassumption|eapply cons_step; [exact (cons_run _ _ _ _ _ cons0 R1)|eassumption]| |exact F|exact E0].
  cbn [step] in ST. bind_inv ST. destruct x as [[m4 s4] rs4]. inversion ST; subst.
  eapply stylus_ok_down; eauto.
Qed.
End Inv.

(** ** Which raw inputs a query uses *)
Definition pj_in (raw : list Result) (p : Projection) : Prop := In (pj_a p) raw /\ In (pj_b p) raw.
Definition best_in (raw : list Result) (b : best) : Prop :=
  match b with None => True | Some (p, _) => pj_in raw p end.

Lemma maybe_update_in : forall raw c d b, pj_in raw c -> best_in raw b -> best_in raw (maybe_update c d b).
Proof. intros raw c d [[p bd]|] H1 H2; cbn; [destruct (fltb d bd)|destruct (fltinf d)]; cbn in *; auto. Qed.

Lemma project_normal_in : forall pos n raw0 raw l r l' r', incl raw raw0 ->
  best_in raw0 l -> best_in raw0 r -> project_normal_loop pos n raw l r = (l', r') ->
  best_in raw0 l' /\ best_in raw0 r'.
Proof.
  intros pos n raw0. induction raw as [|a raw IH]; intros l r l' r' IN L R H.
  - inversion H; subst; auto.
  - destruct raw as [|b rest]; [inversion H; subst; auto|].
    cbn [project_normal_loop] in H.
    assert (IN2 : incl (b :: rest) raw0) by (intros x Hx; apply IN; right; exact Hx).
    assert (P : forall ratio, pj_in raw0 (mkProj a b ratio)).
    { intros ratio. split; cbn; apply IN; [left|right; left]; reflexivity. }
    destruct (project_to_segment_along_normal (r_pos a) (r_pos b) pos n) as [ratio|]; [|exact (IH l r l' r' IN2 L R H)].
    destruct (fltb (vdot _ _) f0); (eapply IH; [exact IN2| | |exact H]); auto using maybe_update_in.
Qed.

Lemma project_closest_in : forall pos raw0 raw b, incl raw raw0 -> best_in raw0 b ->
  best_in raw0 (project_closest_loop pos raw b).
Proof.
  intros pos raw0. induction raw as [|a raw IH]; intros b IN B; [exact B|].
  destruct raw as [|c rest]; [exact B|]. cbn [project_closest_loop].
  apply IH; [intros x Hx; apply IN; right; exact Hx|].
  destruct (match b with Some _ => _ | None => _ end); [|exact B].
  split; cbn; apply IN; [left|right; left]; reflexivity.
Qed.

Definition query_projection (sm : Stylus) (tip : TipState) (normal : option Vec2) : option Projection :=
  match (if sy_normal (sm_params sm) then normal else None) with
  | Some n => project_along_normal (t_pos tip) (t_acc tip) n (s_raw (sm_state sm))
  | None => project_to_closest (t_pos tip) (s_raw (sm_state sm))
  end.

Lemma query_projection_in : forall sm tip n p, query_projection sm tip n = Some p -> pj_in (s_raw (sm_state sm)) p.
Proof.
  intros sm tip n p H. unfold query_projection in H.
  destruct (if sy_normal (sm_params sm) then n else None) as [nn|].
  - unfold project_along_normal in H. destruct (project_normal_loop _ _ _ _ _) as [l r] eqn:E.
    apply project_normal_in with (raw0 := s_raw (sm_state sm)) in E; [|apply incl_refl|exact Logic.I|exact Logic.I].
    destruct E as [E1 E2]. destruct l as [[l dl]|], r as [[r dr]|]; cbn in E1, E2; try discriminate H.
    + destruct (fltb _ _); inversion H; subst; assumption.
    + inversion H; subst; assumption.
    + inversion H; subst; assumption.
  - unfold project_to_closest in H. pose proof (project_closest_in (t_pos tip) _ _ None (incl_refl (s_raw (sm_state sm))) Logic.I) as K.
    destruct (project_closest_loop _ _ _) as [[q d]|]; inversion H; subst. exact K.
Qed.

Lemma back_in : forall {X} (l : list X) x, back l = Some x -> In x l.
Proof. intros X l x H. eapply nth_error_In. exact H. Qed.
Lemma back_some : forall {X} (l : list X), l <> [] -> exists x, back l = Some x.
Proof.
  intros X l N. unfold back. destruct (nth_error l (Nat.pred (List.length l))) eqn:E; [eauto|].
  apply nth_error_None in E. destruct l; [congruence|]. cbn in E. lia.
Qed.

Definition with_flags (st : SState) (time : D) (res : Result) : Result :=
  mkResult (r_pos res) (r_vel res) (r_acc res) time
    (if s_unk_pressure st then fm1 else r_pressure res)
    (if s_unk_tilt st then fm1 else r_tilt res)
    (if s_unk_orient st then fm1 else r_orient res).

Lemma query_eq : forall sm tip n,
  (s_raw (sm_state sm) = [] /\ stylus_query fuel sm tip n = Ret result_no_info) \/
  (s_raw (sm_state sm) <> [] /\ exists o,
     stylus_query fuel sm tip n = obind o (fun res => Ret (with_flags (sm_state sm) (t_time tip) res)) /\
     ((exists p, query_projection sm tip n = Some p /\ o = interp_result fuel (pj_a p) (pj_b p) (pj_ratio p)) \/
      (query_projection sm tip n = None /\ exists r, In r (s_raw (sm_state sm)) /\ o = Ret r))).
Proof.
  intros sm tip n. unfold stylus_query. destruct (s_raw (sm_state sm)) as [|front rest] eqn:E; [left; auto|right].
  split; [discriminate|]. rewrite <- E. change (match (if sy_normal (sm_params sm) then n else None) with
    | Some n0 => project_along_normal (t_pos tip) (t_acc tip) n0 (s_raw (sm_state sm))
    | None => project_to_closest (t_pos tip) (s_raw (sm_state sm)) end) with (query_projection sm tip n).
  destruct (query_projection sm tip n) as [p|].
  - eexists. split; [reflexivity|]. left. eauto.
  - destruct (back_some (s_raw (sm_state sm))) as [b B]; [rewrite E; discriminate|]. rewrite B.
    eexists. split; [reflexivity|]. right. split; [reflexivity|].
    destruct (fltb _ _); eexists; (split; [|reflexivity]); [rewrite E; left; reflexivity|].
    apply back_in. exact B.
Qed.

Lemma ret_inj : forall {X} (x y : X), Ret x = Ret y -> x = y.
Proof. intros X x y H. congruence. Qed.

Lemma interp_result_inv : forall a b x r, interp_result fuel a b x = Ret r ->
  r_pos r = interp_v (r_pos a) (r_pos b) x /\ r_vel r = interp_v (r_vel a) (r_vel b) x /\
  r_acc r = interp_v (r_acc a) (r_acc b) x /\ r_time r = interp_t (r_time a) (r_time b) x /\
  r_pressure r = (if fltb (r_pressure a) f0 || fltb (r_pressure b) f0 then fm1
                  else interp_f (r_pressure a) (r_pressure b) x) /\
  r_tilt r = (if fltb (r_tilt a) f0 || fltb (r_tilt b) f0 then fm1 else interp_f (r_tilt a) (r_tilt b) x) /\
  (if fltb (r_orient a) f0 || fltb (r_orient b) f0 then Ret fm1
   else interp_angle fuel (r_orient a) (r_orient b) x) = Ret (r_orient r).
Proof. intros a b x r H. unfold interp_result in H. bind_inv H. inversion H; subst. cbn. auto 10. Qed.

(** ** Parts that always terminate *)
Definition nodiv {X} (o : outcome X) : Prop := o <> Diverge.

Lemma nodiv_bind : forall {X Y} (o : outcome X) (f : X -> outcome Y),
  nodiv o -> (forall x, o = Ret x -> nodiv (f x)) -> nodiv (obind o f).
Proof. intros X Y [x| |] f H1 H2; cbn; [apply H2; reflexivity|discriminate|exfalso; apply H1; reflexivity]. Qed.
Lemma nodiv_ret : forall {X} (x : X), nodiv (Ret x).
Proof. discriminate. Qed.
Lemma nodiv_to_int : forall {X} o (k : Z -> outcome X), (forall z, nodiv (k z)) -> nodiv (to_int o k).
Proof. intros X [z|] k H; cbn; [apply H|discriminate]. Qed.

Lemma number_of_steps_nodiv : forall tip a b sp pp, nodiv (number_of_steps tip a b sp pp).
Proof.
  intros. unfold number_of_steps. apply nodiv_to_int. intros z. destruct (absolute_angle_to _ _); [|discriminate].
  assert (K : forall n, nodiv (if Z.ltb (sp_max_outputs sp) n then Ret (IErr (InvalidArgument msg_too_far)) else Ret (IOk n)))
    by (intros n; destruct (Z.ltb _ n); discriminate).
  destruct (dltb _ _); [|apply K]. apply nodiv_to_int. intros z2. apply K.
Qed.
Lemma path_nodiv : forall p s a ta b tb n, nodiv (update_along_path p s a ta b tb n).
Proof. intros. unfold update_along_path. destruct (Z.leb _ _); discriminate. Qed.
Lemma wobble_trim_nodiv : forall samples a b c d, nodiv (wobble_trim samples a b c d).
Proof. induction samples as [|s rest IH]; intros; cbn; [discriminate|]. destruct (dltb _ _); [apply IH|discriminate]. Qed.
Lemma wobble_nodiv : forall w p t, nodiv (wobble_update w p t).
Proof.
  intros. unfold wobble_update. destruct (negb _); [discriminate|]. destruct (back _); [|discriminate].
  apply nodiv_bind; [apply wobble_trim_nodiv|]. intros st _. destruct (feqb _ _); discriminate.
Qed.
Lemma should_drop_nodiv : forall p raw, nodiv (should_drop p raw).
Proof.
  intros p raw. unfold should_drop. destruct (sy_normal p); [|discriminate]. destruct (size_gt _ _); [|discriminate].
  destruct (back raw); [|discriminate]. destruct (nth_error raw 1); discriminate.
Qed.
Lemma stylus_trim_nodiv : forall p raw, nodiv (stylus_trim p raw).
Proof.
  intros p. induction raw as [|a rest IH]; cbn [stylus_trim]; (apply nodiv_bind; [apply should_drop_nodiv|]);
    intros [|] _; try discriminate. apply IH.
Qed.
Lemma stylus_update_nodiv : forall m pos t a b c, nodiv (stylus_update m pos t a b c).
Proof.
  intros. unfold stylus_update. destruct (negb _ && _ && _ && _); [discriminate|].
  destruct (match back (s_raw (sm_state m)) with Some _ => _ | None => _ end) as [v acc].
  apply nodiv_bind; [apply stylus_trim_nodiv|]. discriminate.
Qed.
Lemma kf_update_nodiv : forall a b k o, nodiv (kf_update a b k o).
Proof. intros. unfold kf_update. destruct (Z.leb _ _); [discriminate|]. destruct (Z.eqb _ _); discriminate. Qed.
Lemma pred_update_nodiv : forall pr pos t, nodiv (pred_update pr pos t).
Proof.
  intros [pp sp l|k] pos t; cbn; [discriminate|]. apply nodiv_bind; [|discriminate].
  unfold kpred_update. apply nodiv_bind; [apply kf_update_nodiv|]. intros x _. apply nodiv_bind; [apply kf_update_nodiv|]. discriminate.
Qed.
Lemma pred_construct_nodiv : forall pr tip, nodiv (pred_construct pr tip).
Proof.
  intros [pp sp [l|]|k] tip; cbn; try discriminate. unfold kpred_predict.
  destruct (kpred_estimate k); [|discriminate]. destruct (k_last k); [|discriminate].
  apply nodiv_bind; [apply nodiv_to_int; discriminate|]. intros c _. apply nodiv_to_int. discriminate.
Qed.

(** If modelling the stylus terminates, everything does. *)
Section Term.
Variable I : Input -> Prop.
Variable S : SState -> Prop.
Hypothesis S_step : forall sm i pos sm',
  I i -> validate_stylus (sm_params sm) = OkStatus -> (S (sm_state sm) \/ sm_state sm = sstate0) ->
  stylus_update sm pos (i_time i) (i_pressure i) (i_tilt i) (i_orient i) = Ret sm' -> S (sm_state sm').
Hypothesis S_model : forall tips sm lm pt, S (sm_state sm) -> nodiv (model_stylus fuel tips sm lm pt).

Lemma update_nodiv : forall m i rs, good m -> cons m -> I i -> stylus_ok S m -> nodiv (update fuel m i rs).
Proof.
  intros m i rs G C II [SO _]. unfold update. destruct (m_params m) as [p|] eqn:MP; [|discriminate].
  destruct (validate_input i); try discriminate.
  assert (K : nodiv (match i_event i with
    | EDown => process_down m p i rs | EMove => process_move fuel m p i rs
    | EUp => process_up fuel m p i rs | EOther _ => Ret (m, InvalidArgument msg_event, rs) end)).
  { destruct (i_event i).
    - unfold process_down. destruct (m_last m); [discriminate|].
      apply nodiv_bind; [apply stylus_update_nodiv|]. intros sm _. apply nodiv_bind; [|discriminate].
      destruct (m_predictor m); [|discriminate]. apply nodiv_bind; [apply pred_update_nodiv|discriminate].
    - unfold process_move. destruct (m_last m) as [last|] eqn:ML; [|discriminate].
      apply nodiv_bind; [apply wobble_nodiv|]. intros [w c] _.
      apply nodiv_bind; [apply stylus_update_nodiv|]. intros sm SU.
      apply nodiv_bind; [apply number_of_steps_nodiv|]. intros [n|e] _; [|discriminate].
      apply nodiv_bind; [apply path_nodiv|]. intros [tip tips] _.
      apply nodiv_bind.
      { destruct (m_predictor m); [|discriminate]. apply nodiv_bind; [apply pred_update_nodiv|discriminate]. }
      intros pr _. apply nodiv_bind; [|intros [lm out] _; discriminate].
      apply S_model. eapply S_step; [exact II| | |exact SU]; [exact (stylus_valid_live m p last G C MP ML)|left; exact SO].
    - unfold process_up. destruct (m_last m) as [last|] eqn:ML; [|discriminate].
      apply nodiv_bind; [apply number_of_steps_nodiv|]. intros [n|e] _; [|discriminate].
      apply nodiv_bind; [apply path_nodiv|]. intros [tip tips] _.
      destruct (model_end_of_stroke _ _ _ _ _ _) as [tip2 tips2].
      apply nodiv_bind; [apply stylus_update_nodiv|]. intros sm SU.
      apply nodiv_bind; [|intros [lm out] _; discriminate].
      apply S_model. eapply S_step; [exact II| | |exact SU]; [exact (stylus_valid_live m p last G C MP ML)|left; exact SO].
    - discriminate. }
  destruct (m_last m) as [last|]; [|exact K].
  destruct (input_eqb _ _); [discriminate|]. destruct (dltb _ _); [discriminate|exact K].
Qed.

Lemma predict_nodiv : forall m rs, stylus_ok S m -> nodiv (predict fuel m rs).
Proof.
  intros m rs [SO _]. unfold predict. destruct (m_params m); [|discriminate]. destruct (m_predictor m); [|discriminate].
  destruct (m_last m); [|discriminate]. apply nodiv_bind; [apply pred_construct_nodiv|]. intros tips _.
  apply nodiv_bind; [apply S_model; exact SO|]. intros [lm out] _. discriminate.
Qed.

Lemma run_nodiv : forall cs m, good m -> cons m -> stylus_ok S m -> Forall (call_ok I) cs -> nodiv (run fuel m cs).
Proof.
  induction cs as [|c cs IH]; intros m G C SO F; [discriminate|]. inversion F; subst. cbn [run].
  apply nodiv_bind.
  - destruct c; cbn [step].
    + destruct (reset_params m p); discriminate.
    + destruct (reset_keep m); discriminate.
    + apply nodiv_bind; [apply update_nodiv; assumption|]. intros [[m1 s1] rs1] _. discriminate.
    + apply nodiv_bind; [apply predict_nodiv; assumption|]. intros [[m1 s1] rs1] _. discriminate.
    + discriminate.
    + discriminate.
  - intros [m1 r] E. apply nodiv_bind; [|intros [m2 rs] _; discriminate].
    apply IH; [eapply good_step; eassumption|eapply cons_step; eassumption| |assumption]. eapply stylus_ok_step; eassumption.
Qed.
End Term.

End Made.
