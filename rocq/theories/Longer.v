(** * C56: raising end_of_stroke_max_iterations and lowering
      end_of_stroke_stopping_distance only adds results at the end, in any arithmetic. *)
From Coq Require Import ZArith Bool List Reals Lra Lia.
From Flocq Require Import Core BinarySingleNaN.
From Verif Require Import Flt Ieee.
From Verif Require Import Calm Props_Params Quiet Props_Count Limits.
Import ListNotations.

(** ** Specification *)
(** The same parameters with end_of_stroke_max_iterations = [J] and
    end_of_stroke_stopping_distance = [d]. *)
Definition with_end {A : Arith} (J : Z) (d : F) (p : StrokeModelParams) : StrokeModelParams :=
  mkParams (p_wobble p) (p_position p)
    (mkSamplingParams (sp_rate (p_sampling p)) d J (sp_max_outputs (p_sampling p)) (sp_max_angle (p_sampling p)))
    (p_stylus p) (p_prediction p).
Definition ending_with {A : Arith} (J : Z) (d : F) (c : call) : call :=
  match c with CReset p => CReset (with_end J d p) | _ => c end.
(** [sp] ends a stroke no later than [J] and [d] do. *)
Definition ends_sooner {A : Arith} (J : Z) (d : F) (sp : SamplingParams) : Prop :=
  (sp_max_iter sp <= J)%Z /\ (forall x, fltb x d = true -> fltb x (sp_stop sp) = true).
(** Not an Update with an Up, and not a Predict. *)
Definition goes_on {A : Arith} (c : call) : Prop :=
  match c with CUpdate i _ => i_event i <> EUp | CPredict _ => False | _ => True end.
(** [r'] is [r] with results added at the end. *)
Definition lengthened {A : Arith} (r r' : reply) : Prop :=
  match r, r' with
  | RResults s out, RResults s' out' => s' = s /\ exists more, out' = out ++ more
  | _, _ => r' = r
  end.
(** A successful Update that added a single result to [before]. *)
Definition single {A : Arith} (before : list Result) (r : reply) : Prop :=
  match r with RResults OkStatus out => List.length out = S (List.length before) | _ => False end.

Section Longer.
Context {A : Arith}.
Variable J : Z.
Variable d : F.
Definition jsp (sp : SamplingParams) : SamplingParams := mkSamplingParams (sp_rate sp) d J (sp_max_outputs sp) (sp_max_angle sp).
Definition jpred (a : Predictor) : Predictor :=
  match a with
  | PStrokeEnd pp sp l => PStrokeEnd pp (jsp sp) l
  | PKal k => PKal (mkKPred (k_params k) (jsp (k_sampling k)) (k_last k) (k_times k) (k_x k) (k_y k))
  end.
Definition jmod (m : Modeler) : Modeler :=
  mkModeler (option_map jpred (m_predictor m)) (option_map (with_end J d) (m_params m)) (m_wobble m) (m_pos m) (m_stylus m) (m_loop m)
    (m_buffer m) (m_last m) (option_map jpred (m_saved_predictor m)) (m_saved_last m) (m_save_active m).

Lemma jpred_update : forall a pos t, pred_update (jpred a) pos t = (let* x := pred_update a pos t in Ret (jpred x)).
Proof.
  intros [pp sp l|k] pos t; cbn [jpred pred_update obind]; [reflexivity|]. unfold kpred_update. cbn [k_params k_sampling k_last k_times k_x k_y].
  destruct (kf_update _ _ (k_x k) _) as [x| |]; cbn [obind]; try reflexivity. destruct (kf_update _ _ (k_y k) _) as [y| |]; cbn [obind]; reflexivity.
Qed.
Lemma jpred_reset : forall a, pred_reset (jpred a) = jpred (pred_reset a).
Proof. intros [pp sp l|k]; reflexivity. Qed.
Lemma jpred_any : forall o pos t,
  match option_map jpred o with None => Ret None | Some pr => let* pr' := pred_update pr pos t in Ret (Some pr') end =
  (let* x := match o with None => Ret None | Some pr => let* pr' := pred_update pr pos t in Ret (Some pr') end in Ret (option_map jpred x)).
Proof.
  intros [a|] pos t; cbn [option_map obind]; [|reflexivity]. rewrite jpred_update.
  destruct (pred_update a pos t); reflexivity.
Qed.
(** ** Everything but Up and Predict: the same *)
Lemma steps_jmod : forall tip a b p, number_of_steps tip a b (p_sampling (with_end J d p)) (p_position (with_end J d p)) = number_of_steps tip a b (p_sampling p) (p_position p).
Proof. reflexivity. Qed.
Lemma update_goes_on : forall fuel m i rs m' s rs', i_event i <> EUp -> update fuel m i rs = Ret (m', s, rs') -> update fuel (jmod m) i rs = Ret (jmod m', s, rs').
Proof.
  intros fuel m i rs m' s rs' NU H. unfold update in *. cbn [jmod m_params m_last]. destruct (m_params m) as [p|] eqn:MP; cbn [option_map].
  2:{ injection H as <- <- <-. unfold jmod. rewrite MP. reflexivity. }
  assert (KEEP : forall e, Ret (m, e, rs) = Ret (m', s, rs') -> Ret (jmod m, e, rs) = Ret (jmod m', s, rs')) by (intros e E; injection E as <- <- <-; reflexivity).
  destruct (validate_input i); try (apply KEEP; exact H).
  assert (DIS : match i_event i with
    | EDown => process_down m p i rs | EMove => process_move fuel m p i rs
    | EUp => process_up fuel m p i rs | EOther _ => Ret (m, InvalidArgument msg_event, rs) end = Ret (m', s, rs') ->
    match i_event i with
    | EDown => process_down (jmod m) (with_end J d p) i rs | EMove => process_move fuel (jmod m) (with_end J d p) i rs
    | EUp => process_up fuel (jmod m) (with_end J d p) i rs | EOther _ => Ret (jmod m, InvalidArgument msg_event, rs) end = Ret (jmod m', s, rs')).
  { clear H. intros H. destruct (i_event i); [| |congruence|apply KEEP; exact H].
    - unfold process_down in *. cbn [jmod m_last m_wobble m_loop m_stylus m_predictor with_end p_wobble p_position p_stylus] in *.
      destruct (m_last m) as [l|] eqn:ML; [apply KEEP; exact H|].
      destruct (stylus_update _ _ _ _ _ _) as [sm| |]; cbn [obind] in *; try discriminate H.
      destruct (m_predictor m) as [a|] eqn:MPR; cbn [option_map] in *.
      + rewrite jpred_reset, jpred_update. destruct (pred_update (pred_reset a) _ _) as [x| |]; cbn [obind] in *; try discriminate H.
        injection H as <- <- <-. unfold jmod. cbn. rewrite MP. reflexivity.
      + cbn [obind] in *. injection H as <- <- <-. unfold jmod. cbn. rewrite MP. reflexivity.
    - unfold process_move in *. cbn [jmod m_last m_wobble m_pos m_loop m_stylus m_predictor m_buffer m_saved_predictor m_saved_last m_save_active] in *.
      destruct (m_last m) as [l|] eqn:ML; [|apply KEEP; exact H].
      destruct (wobble_update _ _ _) as [[w c]| |]; cbn [obind] in *; try discriminate H.
      destruct (stylus_update _ _ _ _ _ _) as [sm| |] eqn:SU; cbn [obind] in *; try discriminate H.
      rewrite steps_jmod. destruct (number_of_steps _ _ _ _ (p_position p)) as [[k|e]| |] eqn:NS; cbn [obind] in *; try discriminate H.
      2:{ injection H as <- <- <-. unfold jmod. cbn. rewrite MP. reflexivity. }
      destruct (update_along_path _ _ _ _ _ _ _) as [[tip tips]| |] eqn:UA; cbn [obind] in *; try discriminate H.
      rewrite jpred_any. destruct (match m_predictor m with None => _ | Some _ => _ end) as [pr| |] eqn:PR; cbn [obind] in *; try discriminate H.
      destruct (model_stylus _ _ _ _ _) as [[lm out]| |] eqn:MS; cbn [obind] in *; try discriminate H. injection H as <- <- <-.
      unfold jmod. cbn. rewrite MP. reflexivity. }
  destruct (m_last m); [|apply DIS; exact H]. destruct (input_eqb _ _); [apply KEEP; exact H|]. destruct (dltb _ _); [apply KEEP; exact H|]. apply DIS. exact H.
Qed.
Lemma step_goes_on : forall fuel m c m' r, goes_on c -> step fuel m c = Ret (m', r) ->
  (forall p, c = CReset p -> validate_params (with_end J d p) = validate_params p) ->
  step fuel (jmod m) (ending_with J d c) = Ret (jmod m', r).
Proof.
  intros fuel m c m' r G H RP. destruct c as [p| |i rs|rs| |]; cbn [ending_with step goes_on] in *; [| | |contradiction| |].
  - unfold reset_params in *. rewrite (RP p eq_refl). destruct (validate_params p); injection H as <- <-; try reflexivity.
    unfold jmod. cbn. f_equal. f_equal. f_equal. unfold make_predictor. cbn [with_end p_prediction p_sampling p_position]. destruct (p_prediction p); reflexivity.
  - unfold reset_keep in *. cbn [jmod m_params]. destruct (m_params m) as [p|] eqn:MP; cbn [option_map]; injection H as <- <-; unfold jmod; cbn; rewrite ?MP; reflexivity.
  - destruct (update fuel m i rs) as [[[m1 s1] r1]| |] eqn:U; cbn [obind] in H; try discriminate H. injection H as <- <-.
    rewrite (update_goes_on fuel m i rs m1 s1 r1 G U). reflexivity.
  - injection H as <- <-. unfold save, jmod. cbn. destruct (m_predictor m); reflexivity.
  - injection H as <- <-. unfold restore. cbn [jmod m_save_active]. destruct (m_save_active m) eqn:SA; [|unfold jmod; rewrite SA; reflexivity].
    unfold jmod. cbn. destruct (m_saved_predictor m); rewrite ?SA; reflexivity.
Qed.
Lemma run_goes_on : forall fuel cs m m' rs, Forall goes_on cs -> run fuel m cs = Ret (m', rs) ->
  (forall p, In (CReset p) cs -> validate_params (with_end J d p) = validate_params p) ->
  run fuel (jmod m) (map (ending_with J d) cs) = Ret (jmod m', rs).
Proof.
  intros fuel. induction cs as [|c cs IH]; intros m m' rs G H RP; cbn [run map] in *; [injection H as <- <-; reflexivity|].
  destruct (step fuel m c) as [[m1 r1]| |] eqn:S1; cbn [obind] in H; try discriminate H.
  destruct (run fuel m1 cs) as [[m2 q]| |] eqn:R1; cbn [obind] in H; try discriminate H. injection H as <- <-. inversion G; subst.
  rewrite (step_goes_on fuel m c m1 r1); [|assumption|exact S1|intros p ->; apply RP; left; reflexivity].
  cbn [obind]. rewrite (IH m1 m2 q); [reflexivity|assumption|exact R1|intros p I1; apply RP; right; exact I1].
Qed.

(** ** Up and Predict *)
Lemma end_longer : forall k j p s a dt st, (k <= j)%nat -> (forall x, fltb x d = true -> fltb x st = true) ->
  exists more, snd (model_end_of_stroke p s a dt j d) = snd (model_end_of_stroke p s a dt k st) ++ more.
Proof.
  induction k as [|k IH]; intros j p s a dt st L Q; [exists (snd (model_end_of_stroke p s a dt j d)); reflexivity|].
  destruct j as [|j]; [lia|]. cbn [model_end_of_stroke]. set (cand := tip_update _ _ _ _). clearbody cand.
  destruct (fltb (distance (t_pos s) _) st) eqn:E1; [eexists; reflexivity|].
  destruct (fltb (distance (t_pos s) _) d) eqn:E2; [apply Q in E2; congruence|]. clear E1 E2.
  destruct (fltb (nearest_point_on_segment _ _ _) f1); [apply IH; [lia|exact Q]|].
  destruct (fltb (distance (t_pos cand) a) d) eqn:E2; [rewrite (Q _ E2); exists []; reflexivity|].
  destruct (IH j p cand a dt st ltac:(lia) Q) as (more & E).
  destruct (fltb (distance (t_pos cand) a) st).
  - destruct (model_end_of_stroke p cand a dt j d) as [t1 o1]. exists o1. reflexivity.
  - exists more. destruct (model_end_of_stroke p cand a dt j d), (model_end_of_stroke p cand a dt k st). cbn [snd app] in *. congruence.
Qed.
Lemma stylus_longer : forall fuel tips more sm lm v t lm1 out1 lm2 out2, model_stylus_loop fuel tips sm lm v t = Ret (lm1, out1) ->
  model_stylus_loop fuel (tips ++ more) sm lm v t = Ret (lm2, out2) -> exists rest, out2 = out1 ++ rest.
Proof.
  intros fuel. induction tips as [|tip tips IH]; intros more sm lm v t lm1 out1 lm2 out2 H1 H2; cbn [app model_stylus_loop] in *.
  - injection H1 as _ <-. exists out2. reflexivity.
  - destruct (stylus_query _ _ _ _) as [q| |]; cbn [obind] in *; try discriminate H1. destruct (interp_result _ _ _ _) as [r| |]; cbn [obind] in *; try discriminate H1.
    destruct (loop_update _ _ _) as [l1 v1]. destruct (model_stylus_loop fuel tips sm l1 v1 (t_time tip)) as [[l2 o2]| |] eqn:E1; cbn [obind] in H1; try discriminate H1.
    destruct (model_stylus_loop fuel (tips ++ more) sm l1 v1 (t_time tip)) as [[l3 o3]| |] eqn:E2; cbn [obind] in H2; try discriminate H2.
    injection H1 as _ <-. injection H2 as _ <-. destruct (IH _ _ _ _ _ _ _ _ _ E1 E2) as (rest & ->). exists rest. reflexivity.
Qed.
Definition iter_ok (a : Predictor) : Prop := match a with PStrokeEnd _ sp _ => ends_sooner J d sp | PKal _ => True end.
Lemma construct_longer : forall a tip tips tips', iter_ok a -> pred_construct a tip = Ret tips -> pred_construct (jpred a) tip = Ret tips' -> exists more, tips' = tips ++ more.
Proof.
  intros [pp sp [l|]|k] tip tips tips' OK H1 H2; cbn [jpred pred_construct iter_ok jsp sp_rate sp_max_iter sp_stop] in *.
  - injection H1 as <-. injection H2 as <-. destruct OK. apply end_longer; [lia|assumption].
  - injection H1 as <-. injection H2 as <-. exists []. reflexivity.
  - change (kpred_predict (mkKPred (k_params k) (jsp (k_sampling k)) (k_last k) (k_times k) (k_x k) (k_y k)) tip) with (kpred_predict k tip) in H2.
    rewrite H1 in H2. injection H2 as <-. exists []. symmetry. apply app_nil_r.
Qed.
Lemma predict_longer : forall fuel m rs m1 r m2 r', (forall a, m_predictor m = Some a -> iter_ok a) ->
  step fuel m (CPredict rs) = Ret (m1, r) -> step fuel (jmod m) (CPredict rs) = Ret (m2, r') -> lengthened r r'.
Proof.
  intros fuel m rs m1 r m2 r' OK H1 H2. cbn [step] in *. unfold predict in *. cbn [jmod m_params m_predictor m_last m_pos m_stylus m_loop m_wobble] in H2.
  assert (SAME : forall s out, lengthened (RResults s out) (RResults s out)) by (intros; split; [reflexivity|exists []; symmetry; apply app_nil_r]).
  destruct (m_params m) as [p|]; cbn [option_map] in *; [|injection H1 as _ <-; injection H2 as _ <-; apply SAME].
  destruct (m_predictor m) as [a|]; cbn [option_map] in *; [|injection H1 as _ <-; injection H2 as _ <-; apply SAME].
  destruct (m_last m) as [l|]; [|injection H1 as _ <-; injection H2 as _ <-; apply SAME].
  destruct (pred_construct a _) as [tips| |] eqn:E1; cbn [obind] in H1; try discriminate H1.
  destruct (pred_construct (jpred a) _) as [tips'| |] eqn:E2; cbn [obind] in H2; try discriminate H2.
  destruct (construct_longer a _ _ _ (OK a eq_refl) E1 E2) as (more & ->).
  unfold model_stylus in *. destruct (model_stylus_loop fuel tips _ _ _ _) as [[l1 o1]| |] eqn:S1; cbn [obind] in H1; try discriminate H1.
  destruct (model_stylus_loop fuel (tips ++ more) _ _ _ _) as [[l2 o2]| |] eqn:S2; cbn [obind] in H2; try discriminate H2.
  injection H1 as _ <-. injection H2 as _ <-. split; [reflexivity|]. eapply stylus_longer; eassumption.
Qed.
Lemma up_longer : forall fuel m i rs m1 r m2 r', (forall p, m_params m = Some p -> ends_sooner J d (p_sampling p)) ->
  i_event i = EUp -> step fuel m (CUpdate i rs) = Ret (m1, r) -> step fuel (jmod m) (CUpdate i rs) = Ret (m2, r') -> lengthened r r' \/ single rs r.
Proof.
  intros fuel m i rs m1 r m2 r' OK EV H1 H2. cbn [step] in *. unfold update in *. cbn [jmod m_params m_last] in H2.
  assert (SAME : forall s out, lengthened (RResults s out) (RResults s out)) by (intros; split; [reflexivity|exists []; symmetry; apply app_nil_r]).
  destruct (m_params m) as [p|] eqn:MP; cbn [option_map] in *; [|injection H1 as _ <-; injection H2 as _ <-; left; apply SAME]. specialize (OK p eq_refl). rewrite EV in *.
  destruct (validate_input i); try (injection H1 as _ <-; injection H2 as _ <-; left; apply SAME).
  assert (UP : forall m1 r m2 r', (let* '(m', s, rs') := process_up fuel m p i rs in Ret (m', RResults s rs')) = Ret (m1, r) ->
    (let* '(m', s, rs') := process_up fuel (jmod m) (with_end J d p) i rs in Ret (m', RResults s rs')) = Ret (m2, r') -> lengthened r r' \/ single rs r).
  { clear - OK SAME. intros m1 r m2 r' H1 H2. unfold process_up in *. cbn [jmod m_last m_wobble m_pos m_loop m_stylus m_predictor m_buffer m_saved_predictor m_saved_last m_save_active] in H2.
    destruct (m_last m) as [l|]; [|injection H1 as _ <-; injection H2 as _ <-; left; apply SAME]. rewrite steps_jmod in H2.
    destruct (number_of_steps _ _ _ _ (p_position p)) as [[k|e]| |]; cbn [obind] in *; try discriminate H1; [|injection H1 as _ <-; injection H2 as _ <-; left; apply SAME].
    destruct (update_along_path _ _ _ _ _ _ _) as [[tip tips]| |]; cbn [obind] in *; try discriminate H1. cbn [with_end p_sampling sp_rate sp_max_iter sp_stop] in H2.
    destruct (end_longer (Z.to_nat (sp_max_iter (p_sampling p))) (Z.to_nat J) (pm_params (m_pos m)) tip (i_pos i) (ddiv (dofZ 1) (sp_rate (p_sampling p))) (sp_stop (p_sampling p)) ltac:(destruct OK; lia) (proj2 OK)) as (more & EM).
    destruct (model_end_of_stroke _ _ _ _ (Z.to_nat J) _) as [tip3 tips3]. destruct (model_end_of_stroke _ _ _ _ (Z.to_nat (sp_max_iter (p_sampling p))) _) as [tip2 tips2]. cbn [snd] in EM. subst tips3.
    destruct (stylus_update _ _ _ _ _ _) as [sm| |]; cbn [obind] in *; try discriminate H1. rewrite app_assoc in H2.
    unfold model_stylus in *. destruct (tips ++ tips2) as [|t0 ts] eqn:TE.
    - destruct (model_stylus_loop fuel [tip2] _ _ _ _) as [[l1 o1]| |] eqn:S1; cbn [obind] in H1; try discriminate H1. injection H1 as _ <-. right. cbn [single].
      apply stylus_loop_length in S1. rewrite app_length, S1. cbn [List.length]. lia.
    - cbn [app] in H2. destruct (model_stylus_loop fuel (t0 :: ts) _ _ _ _) as [[l1 o1]| |] eqn:S1; cbn [obind] in H1; try discriminate H1.
      destruct (model_stylus_loop fuel (t0 :: ts ++ more) _ _ _ _) as [[l2 o2]| |] eqn:S2; cbn [obind] in H2; try discriminate H2.
      injection H1 as _ <-. injection H2 as _ <-. left. split; [reflexivity|]. destruct (stylus_longer fuel (t0 :: ts) more _ _ _ _ _ _ _ _ S1 S2) as (rest & ->).
      exists rest. apply app_assoc. }
  destruct (m_last m); [|eapply UP; eassumption].
  destruct (input_eqb _ _); [injection H1 as _ <-; injection H2 as _ <-; left; apply SAME|]. destruct (dltb _ _); [injection H1 as _ <-; injection H2 as _ <-; left; apply SAME|]. eapply UP; eassumption.
Qed.

(** The predictors in use come from the parameters given. *)
Definition preds_ok (m : Modeler) : Prop :=
  (forall a, m_predictor m = Some a -> iter_ok a) /\ (forall a, m_saved_predictor m = Some a -> iter_ok a).
Lemma update_iter_ok : forall a pos t b, iter_ok a -> pred_update a pos t = Ret b -> iter_ok b.
Proof.
  intros [pp sp l|k] pos t b OK H; cbn [pred_update] in H; [injection H as <-; exact OK|]. destruct (kpred_update k pos t); cbn [obind] in H; try discriminate H. injection H as <-. exact I.
Qed.
Lemma update_preds_ok : forall fuel m i rs m' s rs', preds_ok m -> update fuel m i rs = Ret (m', s, rs') -> preds_ok m'.
Proof.
  intros fuel m i rs m' s rs' [O1 O2] H. unfold update in H.
  assert (KEEP : forall e, Ret (m, e, rs) = Ret (m', s, rs') -> preds_ok m') by (intros e E; injection E as <- <- <-; split; assumption).
  destruct (m_params m) as [p|]; [|eapply KEEP; exact H]. destruct (validate_input i); try (eapply KEEP; exact H).
  assert (PA : forall pos t x, match m_predictor m with None => Ret None | Some pr => let* pr' := pred_update pr pos t in Ret (Some pr') end = Ret x -> forall a, x = Some a -> iter_ok a).
  { intros pos t x E a ->. destruct (m_predictor m) as [b|]; [|discriminate E]. destruct (pred_update b pos t) as [c| |] eqn:U; cbn [obind] in E; try discriminate E. injection E as <-.
    eapply update_iter_ok; [apply O1; reflexivity|exact U]. }
  assert (DIS : match i_event i with
    | EDown => process_down m p i rs | EMove => process_move fuel m p i rs
    | EUp => process_up fuel m p i rs | EOther _ => Ret (m, InvalidArgument msg_event, rs) end = Ret (m', s, rs') -> preds_ok m').
  { clear H. intros H. destruct (i_event i); [| | |eapply KEEP; exact H].
    - unfold process_down in H. destruct (m_last m); [eapply KEEP; exact H|]. destruct (stylus_update _ _ _ _ _ _); cbn [obind] in H; try discriminate H.
      destruct (m_predictor m) as [b|] eqn:MP; cbn [obind] in H.
      + destruct (pred_update (pred_reset b) _ _) as [c| |] eqn:U; cbn [obind] in H; try discriminate H. injection H as <- <- <-. split; [|exact O2]. cbn [m_predictor]. intros a E. injection E as <-.
        eapply update_iter_ok; [|exact U]. specialize (O1 b eq_refl). destruct b; exact O1.
      + injection H as <- <- <-. split; [discriminate|exact O2].
    - unfold process_move in H. destruct (m_last m); [|eapply KEEP; exact H]. destruct (wobble_update _ _ _) as [[w c]| |]; cbn [obind] in H; try discriminate H.
      destruct (stylus_update _ _ _ _ _ _); cbn [obind] in H; try discriminate H. destruct (number_of_steps _ _ _ _ _) as [[k|e]| |]; cbn [obind] in H; try discriminate H.
      2:{ injection H as <- <- <-. split; assumption. }
      destruct (update_along_path _ _ _ _ _ _ _) as [[tip tips]| |]; cbn [obind] in H; try discriminate H.
      destruct (match m_predictor m with None => _ | Some _ => _ end) as [pr| |] eqn:PR; cbn [obind] in H; try discriminate H.
      destruct (model_stylus _ _ _ _ _) as [[lm out]| |]; cbn [obind] in H; try discriminate H. injection H as <- <- <-. split; [|exact O2]. cbn [m_predictor]. eapply PA. exact PR.
    - unfold process_up in H. destruct (m_last m); [|eapply KEEP; exact H]. destruct (number_of_steps _ _ _ _ _) as [[k|e]| |]; cbn [obind] in H; try discriminate H; [|eapply KEEP; exact H].
      destruct (update_along_path _ _ _ _ _ _ _) as [[tip tips]| |]; cbn [obind] in H; try discriminate H. destruct (model_end_of_stroke _ _ _ _ _ _) as [tip2 tips2].
      destruct (stylus_update _ _ _ _ _ _); cbn [obind] in H; try discriminate H. destruct (model_stylus _ _ _ _ _) as [[lm out]| |]; cbn [obind] in H; try discriminate H.
      injection H as <- <- <-. split; assumption. }
  destruct (m_last m); [|apply DIS; exact H]. destruct (input_eqb _ _); [eapply KEEP; exact H|]. destruct (dltb _ _); [eapply KEEP; exact H|]. apply DIS. exact H.
Qed.
Lemma step_preds_ok : forall fuel m c m' r, goes_on c -> preds_ok m -> (forall p, c = CReset p -> ends_sooner J d (p_sampling p)) -> step fuel m c = Ret (m', r) -> preds_ok m'.
Proof.
  intros fuel m c m' r G [O1 O2] RP H. destruct c as [p| |i rs|rs| |]; cbn [step goes_on] in *; [| | |contradiction| |].
  - unfold reset_params in H. specialize (RP p eq_refl). destruct (validate_params p); injection H as <- <-; try (split; assumption). split; [|exact O2]. cbn [m_predictor]. unfold make_predictor.
    intros a E. destruct (p_prediction p); try discriminate E; injection E as <-; [exact RP|exact I] || (injection E as <-; exact I).
  - unfold reset_keep in H. destruct (m_params m); injection H as <- <-; split; assumption.
  - destruct (update fuel m i rs) as [[[m1 s1] r1]| |] eqn:U; cbn [obind] in H; try discriminate H. injection H as <- <-. eapply update_preds_ok; [split; eassumption|exact U].
  - injection H as <- <-. split; [exact O1|]. cbn [save m_saved_predictor]. intros a E. destruct (m_predictor m); [apply O1; exact E|apply O2; exact E].
  - injection H as <- <-. unfold restore. destruct (m_save_active m); [|split; assumption]. split; [|exact O2]. cbn [m_predictor]. intros a E. destruct (m_saved_predictor m); [apply O2; exact E|apply O1; exact E].
Qed.
Lemma run_preds_ok : forall fuel cs m m' rs, Forall goes_on cs -> preds_ok m -> (forall p, m_params m = Some p -> ends_sooner J d (p_sampling p)) ->
  (forall p, In (CReset p) cs -> ends_sooner J d (p_sampling p)) -> run fuel m cs = Ret (m', rs) ->
  preds_ok m' /\ (forall p, m_params m' = Some p -> ends_sooner J d (p_sampling p)).
Proof.
  intros fuel. induction cs as [|c cs IH]; intros m m' rs G OK MP RP H; cbn [run] in H; [injection H as <- <-; split; assumption|].
  destruct (step fuel m c) as [[m1 r1]| |] eqn:S1; cbn [obind] in H; try discriminate H.
  destruct (run fuel m1 cs) as [[m2 q]| |] eqn:R1; cbn [obind] in H; try discriminate H. injection H as <- <-. inversion G; subst.
  eapply (IH m1); [assumption| | |intros p I1; apply RP; right; exact I1|exact R1].
  - eapply step_preds_ok; [eassumption|exact OK|intros p ->; apply RP; left; reflexivity|exact S1].
  - apply (params_limit fuel m c m1 r1 _ S1 MP). intros p ->. apply RP. left. reflexivity.
Qed.
End Longer.

(** ** C56 *)
(** Before the end of the stroke nothing depends on the two parameters; with more
    iterations and a smaller distance a prediction and the Up give the same results
    and perhaps more after them.  (An Up that gives a single result may give others
    instead.)  The new values must be as valid as the old ones. *)
Theorem C56_longer_end_only_adds : forall (A : Arith) fuel J (d : F) hist c r r', Forall goes_on hist ->
  (forall p, In (CReset p) hist -> ends_sooner J d (p_sampling p) /\ validate_params (with_end J d p) = validate_params p) -> (forall p, c <> CReset p) ->
  answers fuel hist [c] = Ret [r] -> answers fuel (map (ending_with J d) hist) [c] = Ret [r'] ->
  (goes_on c -> r' = r) /\ (forall rs, c = CPredict rs -> lengthened r r') /\ (forall i rs, c = CUpdate i rs -> lengthened r r' \/ single rs r).
Proof.
  intros A fuel J d hist c r r' G RP NR H1 H2. unfold answers in *.
  destruct (run fuel modeler0 hist) as [[m q]| |] eqn:R; try discriminate H1. cbn [obind fst snd] in *.
  destruct (run_preds_ok J d fuel hist modeler0 m q G) as [[O1 _] O2]; [split; discriminate|discriminate|intros p I1; apply RP; exact I1|exact R|].
  pose proof (run_goes_on J d fuel hist modeler0 m q G R (fun p I1 => proj2 (RP p I1))) as L. change (jmod J d modeler0) with modeler0 in L. rewrite L in H2. cbn [obind fst snd run] in *.
  destruct (step fuel m c) as [[m1 r1]| |] eqn:S1; cbn [obind] in H1; try discriminate H1. injection H1 as <-.
  destruct (step fuel (jmod J d m) c) as [[m2 r2]| |] eqn:S2; cbn [obind] in H2; try discriminate H2. injection H2 as <-.
  assert (GO : goes_on c -> r2 = r1).
  { intros GC. pose proof (step_goes_on J d fuel m c m1 r1 GC S1 ltac:(intros p ->; exfalso; apply (NR p); reflexivity)) as K.
    replace (ending_with J d c) with c in K by (destruct c; try reflexivity; exfalso; eapply NR; reflexivity). rewrite S2 in K. injection K as _ <-. reflexivity. }
  split; [exact GO|]. split; [intros rs ->; eapply predict_longer; eassumption|]. intros i rs ->.
  assert (SAME : r2 = r1 -> lengthened r1 r2 \/ single rs r1).
  { intros ->. left. destruct r1; cbn; [reflexivity|split; [reflexivity|exists []; symmetry; apply app_nil_r]|reflexivity]. }
  destruct (i_event i) eqn:EV; try (apply SAME, GO; cbn; congruence). eapply up_longer; eassumption.
Qed.


(** In binary32: more iterations and a smaller distance. *)
Theorem C56_float_ends_sooner : forall acosf (A := ieee acosf) J (d : float32) (sp : SamplingParams (A := ieee acosf)), (sp_max_iter sp <= J)%Z ->
  is_finite d = true -> is_finite (sp_stop sp : float32) = true -> (B2R d <= B2R (sp_stop sp : float32))%R -> ends_sooner (A := ieee acosf) J d sp.
Proof.
  intros acosf A J d sp L FD FS LE. split; [exact L|]. intros x H. cbn [fltb ieee] in *. set (st := sp_stop sp : float32) in *. clearbody st.
  destruct (is_finite (x : float32)) eqn:FX.
  - rewrite Bltb_correct in * by assumption. apply Rlt_bool_true. destruct (Rlt_bool_spec (B2R (x : float32)) (B2R d)) as [Q|Q]; [lra|discriminate H].
  - clear LE. destruct x as [|[]| |]; try discriminate FX; destruct d; try discriminate FD; try discriminate H; destruct st; try discriminate FS; reflexivity.
Qed.
