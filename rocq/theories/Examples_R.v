(** * The hypotheses of the exact-arithmetic theorems can be met: one concrete
      stroke, with smoothing, loop mitigation, normal projection, the angle limit
      and every kind of prediction switched on or off. *)
From Coq Require Import ZArith Bool List Sorted Reals Lra Lia Psatz String.
From Flocq Require Import Core.Raux.
From Verif Require Import Props_Rest.
Import ListNotations.
Open Scope R_scope.

#[local] Existing Instance real_arith.

Ltac decide_R :=
  repeat match goal with
  | |- context [Rltb ?a ?b] => first [rewrite (proj2 (Rltb_false a b)) by lra | rewrite (proj2 (Rltb_true a b)) by lra]
  | |- context [Rleb ?a ?b] => first [rewrite (proj2 (Rleb_false a b)) by lra | rewrite (proj2 (Rleb_true a b)) by lra]
  | |- context [Reqb ?a ?b] => first [rewrite (proj2 (Reqb_false a b)) by lra | rewrite (proj2 (Reqb_true a b)) by lra]
  end.

(** ** Parameters and inputs *)
Definition R_wobble (on : bool) : WobbleParams := mkWobbleParams on (3/2 : R) (1/4 : R) (2 : R).
Definition R_loop (on : bool) : LoopParams := mkLoopParams on (0 : R) (10 : R) (1 : R) (1/2 : R) (2 : R) 3.
Definition R_position (loop : bool) : PositionParams := mkPositionParams (1 : R) (1 : R) (R_loop loop).
Definition R_sampling (limit : bool) : SamplingParams :=
  mkSamplingParams (1 : R) (1/100 : R) 20 100 (if limit then PI / 4 else -1 : R).
Definition R_stylus (normal : bool) : StylusParams := mkStylusParams 10 normal 2 (2 : R).
Definition R_kalman : KalmanParams :=
  mkKalmanParams (1/100 : R) (1/10 : R) 2 20 (1/100 : R) (1/2 : R) (1/10 : R) (1/2 : R)
    (mkConfidenceParams 2 (4 : R) (0 : R) (1 : R) (2 : R) (1/2 : R)).
Definition R_params (wob loop normal limit : bool) (pred : PredictionParams) : StrokeModelParams :=
  mkParams (R_wobble wob) (R_position loop) (R_sampling limit) (R_stylus normal) pred.
Definition fit (wob loop normal limit : bool) (pred : PredictionParams) : Prop :=
  (loop = true -> normal = true) /\ (pred = PredStrokeEnd \/ pred = PredDisabled \/ pred = PredKalman R_kalman).

Definition at_ (e : event_type) (x y t pr : R) : Input := mkInput e (mkVec2 (x : R) (y : R)) (t : R) (pr : R) (1/2 : R) (1 : R).
Definition down := at_ EDown 0 0 0 (1/2).
Definition move1 := at_ EMove 1 0 1 (3/4).
Definition move2 := at_ EMove 0 1 2 1.
Definition move3 := at_ EMove 0 (3/2) 3 (1/4).
Definition up := at_ EUp 0 2 4 0.

Lemma R_params_valid : forall wob loop normal limit pred, fit wob loop normal limit pred ->
  validate_params (R_params wob loop normal limit pred) = OkStatus.
Proof.
  intros wob loop normal limit pred [LN PR].
  assert (E : loop && negb normal = false) by (destruct loop, normal; auto; specialize (LN eq_refl); discriminate).
  pose proof PI_RGT_0 as PG. pose proof PI_4 as P4.
  unfold validate_params. cbn [R_params p_position p_stylus p_wobble p_sampling p_prediction R_position pp_loop R_loop lp_enabled R_stylus sy_normal]. rewrite E.
  assert (V1 : validate_wobble (R_wobble wob) = OkStatus).
  { unfold validate_wobble, R_wobble, validate_ge0_d, validate_ge0_f, validate_finite_d, validate_finite_f. cbn [wp_enabled wp_timeout wp_floor wp_ceiling].
    rsimp. destruct wob; [|reflexivity]. cbn [negb]. decide_R. reflexivity. }
  assert (V2 : validate_position (R_position loop) = OkStatus).
  { unfold validate_position, validate_loop, R_position, R_loop, validate_gt0_f, validate_finite_f. cbn [pp_loop pp_spring pp_drag lp_enabled lp_speed_lower lp_speed_upper lp_strength_lower lp_strength_upper lp_window lp_min_samples].
    unfold kMaxSamplingWindow. rsimp. destruct loop; cbn [negb]; decide_R; reflexivity. }
  assert (V3 : validate_sampling (R_sampling limit) = OkStatus).
  { unfold validate_sampling, R_sampling, validate_gt0_f, validate_gt0_d, validate_gt0_i, validate_finite_f, validate_finite_d. cbn [sp_rate sp_stop sp_max_iter sp_max_outputs sp_max_angle].
    rsimp. destruct limit; decide_R; reflexivity. }
  assert (V4 : validate_stylus (R_stylus normal) = OkStatus).
  { unfold validate_stylus, R_stylus, validate_gt0_d, validate_gt0_i, validate_finite_d. cbn [sy_normal sy_min_samples sy_min_duration sy_max_samples].
    rsimp. destruct normal; decide_R; reflexivity. }
  fold (R_loop loop) (R_position loop) (R_stylus normal). rewrite V1, V2, V3, V4. cbn [and_then].
  destruct PR as [->|[->| ->]]; try reflexivity.
  unfold validate_prediction, validate_kalman, R_kalman, validate_gt0_f, validate_gt0_d, validate_gt0_i, validate_ge0_f, validate_finite_f, validate_finite_d.
  cbn [kp_process kp_measure kp_min_stable kp_max_times kp_catchup kp_acc_weight kp_jerk_weight kp_interval kp_conf cp_samples cp_max_dist cp_min_speed cp_max_speed cp_max_dev cp_baseline].
  rsimp. decide_R. reflexivity.
Qed.

Lemma moves_differ : forall a b, i_time a <> i_time b -> a <> b.
Proof. intros a b N E. apply N. rewrite E. reflexivity. Qed.
Lemma limit_fits : forall limit, sp_max_angle (R_sampling limit) = -1 \/ PI / sp_max_angle (R_sampling limit) <= IZR (sp_max_outputs (R_sampling limit)).
Proof.
  intros [|]; [right|left; reflexivity]. cbn [R_sampling sp_max_angle sp_max_outputs]. pose proof PI_RGT_0.
  replace (PI / (PI / 4)) with 4 by (field; lra). lra.
Qed.
Lemma one_le_2pi : (1 : R) <= 2 * PI.
Proof. pose proof PI2_3_2. lra. Qed.

(** ** The stroke *)
Section Stroke.
Variables (wob loop normal limit : bool) (pred : PredictionParams).
Hypothesis FIT : fit wob loop normal limit pred.
Let p := R_params wob loop normal limit pred.

Lemma drawn_so_far : forall ms, ms = [] \/ ms = [move1] \/ ms = [move1; move2] ->
  exists s es, after_seen 1 (drawing p (down :: ms)) s es (down :: ms) /\ map fst es = down :: ms /\
    ps_params s = Some p /\ ps_last s = Some (last ms down) /\ Sorted Rle (map i_time (down :: ms)).
Proof.
  intros ms MS. pose proof one_le_2pi as O.
  assert (PW : Forall (fun i => i_event i = EMove) ms /\ Forall (fun i => i_orient i <= 2 * PI) (down :: ms) /\
    (Z.of_nat (List.length (down :: ms)) < INT_MAX)%Z /\ paced_well (R_sampling limit) down ms /\ Sorted Rle (map i_time (down :: ms))).
  { destruct MS as [->|[->| ->]].
    - split; [constructor|]. split; [repeat (constructor; [exact O|]); constructor|]. split; [reflexivity|]. split; [exact Logic.I|]. repeat constructor.
    - split; [repeat constructor|]. split; [repeat (constructor; [exact O|]); constructor|]. split; [reflexivity|].
      cbn [paced_well R_sampling sp_rate sp_max_outputs move1 move2 down at_ i_time map].
      split; [split; [apply moves_differ; cbn; lra|repeat split; cbn; lra]|]. repeat (constructor; try (cbn; lra)).
    - split; [repeat constructor|]. split; [repeat (constructor; [exact O|]); constructor|]. split; [reflexivity|].
      cbn [paced_well R_sampling sp_rate sp_max_outputs move1 move2 down at_ i_time map].
      split; [split; [apply moves_differ; cbn; lra|split; [cbn; lra|split; [cbn; lra|split; [apply moves_differ; cbn; lra|repeat split; cbn; lra]]]]|].
      repeat (constructor; try (cbn; lra)). }
  destruct PW as (W1 & W2 & W3 & W4 & W5).
  destruct (C51_whole_stroke_accepted 1 p down ms (le_n 1) (R_params_valid _ _ _ _ _ FIT) ltac:(reflexivity) (limit_fits limit) eq_refl W1 W2 W3 W4)
    as (s & es & A1 & A2 & A3 & A4).
  exists s, es. auto.
Qed.

Lemma next_tame : forall ms i, Forall (fun i => i_orient i <= 2 * PI) (down :: ms ++ [i]) -> (Z.of_nat (List.length (down :: ms ++ [i])) < INT_MAX)%Z ->
  tame (drawing p (down :: ms) ++ [CUpdate i []]).
Proof.
  intros ms i O L. replace (drawing p (down :: ms) ++ [CUpdate i []]) with (drawing p (down :: ms ++ [i])).
  - apply tame_drawing; auto. reflexivity.
  - unfold drawing. cbn [map]. rewrite map_app. reflexivity.
Qed.

(** After Down and two Moves, [i] may follow if it is not later than 100 seconds. *)
Lemma next_input : forall ms i, ms = [] \/ ms = [move1] \/ ms = [move1; move2] -> (i_event i = EMove \/ i_event i = EUp) ->
  i_orient i <= 2 * PI -> i <> last ms down -> i_time (last ms down) <= i_time i <= 4 ->
  exists s es out, after_seen 1 (drawing p (down :: ms)) s es (down :: ms) /\ map fst es = down :: ms /\
    ps_params s = Some p /\ ps_last s = Some (last ms down) /\ Sorted Rle (map i_time ((down :: ms) ++ [i])) /\
    answers 1 (drawing p (down :: ms)) [CUpdate i []] = Ret [RResults OkStatus ([] ++ out)].
Proof.
  intros ms i MS EV OR NE TI. destruct (drawn_so_far ms MS) as (s & es & A1 & A2 & A3 & A4 & A5).
  assert (AF : after 1 (drawing p (down :: ms)) s) by (destruct A1 as (ma & rsa & Ra & Pa & _); exists ma, rsa; auto).
  pose proof one_le_2pi as O.
  assert (T : tame (drawing p (down :: ms) ++ [CUpdate i []])).
  { apply next_tame.
    - destruct MS as [->|[->| ->]]; cbn [app]; repeat (constructor; [exact O || exact OR|]); constructor.
    - destruct MS as [->|[->| ->]]; reflexivity. }
  assert (T0 : 0 <= i_time (last ms down)) by (destruct MS as [->|[->| ->]]; cbn; lra).
  destruct (C51_next_input_accepted 1 _ s p (last ms down) i [] (le_n 1) T AF A3 A4 EV NE ltac:(lra)) as (out & AN).
  - cbn. lra.
  - apply limit_fits.
  - exists s, es, out. repeat (split; [assumption|]). split; [|exact AN].
    assert (SL : forall l x, Sorted Rle (map i_time l) -> (forall y, In y l -> i_time y <= i_time x) -> Sorted Rle (map i_time (l ++ [x]))).
    { clear. induction l as [|a l IH]; intros x H1 H2; [repeat constructor|]. cbn [map app] in *. inversion H1; subst.
      constructor; [apply IH; [assumption|intros; apply H2; right; assumption]|]. destruct l; cbn [map app] in *.
      - constructor. apply H2. left. reflexivity.
      - inversion H4; subst. constructor. assumption. }
    apply SL; [exact A5|]. intros y IN. apply Rle_trans with (i_time (last ms down)); [|apply TI].
    destruct MS as [->|[->| ->]]; cbn in *; repeat (destruct IN as [<-|IN]); try contradiction; cbn; lra.
Qed.

Lemma next_predict : pred = PredStrokeEnd ->
  exists s es out, after_seen 1 (drawing p [down; move1; move2]) s es [down; move1; move2] /\ map fst es = [down; move1; move2] /\
    ps_params s = Some p /\ ps_last s = Some move2 /\ Sorted Rle (map i_time [down; move1; move2]) /\
    answers 1 (drawing p [down; move1; move2]) [CPredict []] = Ret [RResults OkStatus out].
Proof.
  intros PE. destruct (drawn_so_far [move1; move2] ltac:(auto)) as (s & es & A1 & A2 & A3 & A4 & A5).
  assert (AF : after 1 (drawing p [down; move1; move2]) s) by (destruct A1 as (ma & rsa & Ra & Pa & _); exists ma, rsa; auto).
  assert (T : tame (drawing p [down; move1; move2] ++ [CPredict []])).
  { pose proof one_le_2pi as O. constructor; [discriminate| |].
    - constructor; [reflexivity|]. cbn [drawing map app]. repeat (constructor; [exact O|]). repeat constructor.
    - left. cbn [drawing map app]. repeat constructor. unfold p, not_kalman. cbn [R_params p_prediction]. rewrite PE. exact Logic.I. }
  destruct (tame_call 1 _ s (CPredict []) (le_n 1) T AF) as (m & r0 & m' & r & _ & _ & _ & _ & _ & AN).
  destruct (C13_predict_succeeds 1 _ s p [] AF A3) as [H _]; [unfold prediction_on, p; cbn [R_params p_prediction]; rewrite PE; reflexivity|unfold in_stroke; rewrite A4; reflexivity|].
  destruct (H _ AN) as (out & E). injection E as ->. exists s, es, out. auto 10.
Qed.
End Stroke.

(** ** The theorems applied to it *)
Ltac fitting := split; [intros; (reflexivity || discriminate || congruence)|auto].
Lemma no_kalman_fit : forall wob loop normal limit, (loop = true -> normal = true) -> fit wob loop normal limit PredStrokeEnd.
Proof. intros. split; auto. Qed.
Lemma seen_stroke : forall fuel hist s es seen, after_seen fuel hist s es seen -> after_stroke fuel hist s es.
Proof. intros fuel hist s es seen H. apply after_seen_stroke. eauto. Qed.
Lemma seen_after : forall fuel hist s es seen, after_seen fuel hist s es seen -> after fuel hist s.
Proof. intros fuel hist s es seen (m & rs & R & P & _). exists m, rs. auto. Qed.

(** Move3 after Down, Move1 and Move2; Up after them. *)
Lemma move3_next : forall wob loop normal limit pred, fit wob loop normal limit pred ->
  let p := R_params wob loop normal limit pred in let hist := drawing p [down; move1; move2] in
  exists s es out, after_seen 1 hist s es [down; move1; move2] /\ map fst es = [down; move1; move2] /\
    ps_params s = Some p /\ ps_last s = Some move2 /\ Sorted Rle (map i_time [down; move1; move2; move3]) /\
    answers 1 hist [CUpdate move3 []] = Ret [RResults OkStatus ([] ++ out)].
Proof.
  intros. apply (next_input _ _ _ _ _ H [move1; move2] move3); auto; cbn; try lra; try apply one_le_2pi.
  apply moves_differ. cbn. lra.
Qed.
Lemma up_next : forall wob loop normal limit pred, fit wob loop normal limit pred ->
  let p := R_params wob loop normal limit pred in let hist := drawing p [down; move1; move2] in
  exists s es out, after_seen 1 hist s es [down; move1; move2] /\ map fst es = [down; move1; move2] /\
    ps_params s = Some p /\ ps_last s = Some move2 /\ Sorted Rle (map i_time [down; move1; move2; up]) /\
    answers 1 hist [CUpdate up []] = Ret [RResults OkStatus ([] ++ out)].
Proof.
  intros. apply (next_input _ _ _ _ _ H [move1; move2] up); auto; cbn; try lra; try apply one_le_2pi.
  apply moves_differ. cbn. lra.
Qed.
Lemma sorted3 : Sorted Rle (map i_time [down; move1; move2]).
Proof. cbn. repeat (constructor; try lra). Qed.

(** C22, C23: with everything switched on, Move3 is accepted with one result, at
    its time; Up with results from there on. *)
Example C22_example : let p := R_params true true true false PredStrokeEnd in
  exists out, answers 1 (drawing p [down; move1; move2]) [CUpdate move3 []] = Ret [RResults OkStatus out] /\
    List.length out = 1%nat /\ evenly_spaced 2 3 out /\ gaps_within 1 2 (map r_time out).
Proof.
  intros p. destruct (move3_next true true true false PredStrokeEnd ltac:(fitting)) as (s & es & out & A1 & A2 & A3 & A4 & A5 & AN).
  exists out. split; [exact AN|].
  destruct (C22_move_evenly_spaced 1 _ s p move2 move3 [] out (seen_after _ _ _ _ _ A1) A3 A4 eq_refl AN) as (E1 & E2 & _).
  pose proof (C22_move_exact_count 1 _ s p move2 move3 [] out (seen_after _ _ _ _ _ A1) A3 A4 eq_refl eq_refl AN) as LN.
  cbn in LN. replace ((3 - 2) * 1) with (IZR 1) in LN by lra. rewrite Zceil_IZR in LN.
  split; [lia|]. split; [exact E1|]. replace (1 / sp_rate (p_sampling p)) with (1 : R) in E2 by (cbn; lra). exact E2.
Qed.
Example C23_example : let p := R_params true true true true PredStrokeEnd in
  exists es out, map fst es = [down; move1; move2] /\
    answers 1 (drawing p [down; move1; move2]) [CUpdate up []] = Ret [RResults OkStatus out] /\
    Sorted Rle (map r_time (List.concat (map snd es) ++ out)) /\ Forall (fun r => 2 <= r_time r) out.
Proof.
  intros p. destruct (up_next true true true true PredStrokeEnd ltac:(fitting)) as (s & es & out & A1 & A2 & A3 & A4 & A5 & AN).
  exists es, out. split; [exact A2|]. split; [exact AN|].
  apply (C23_up_times_never_decrease 1 _ s p move2 up [] out es (seen_stroke _ _ _ _ _ A1) A3 A4 eq_refl AN).
Qed.
Example C22_predict_example : let p := R_params true true true true PredStrokeEnd in
  exists out, answers 1 (drawing p [down; move1; move2]) [CPredict []] = Ret [RResults OkStatus out] /\
    gaps_within (1 / 1) 2 (map r_time out).
Proof.
  intros p. destruct (next_predict true true true true PredStrokeEnd ltac:(fitting) eq_refl) as (s & es & out & A1 & A2 & A3 & A4 & A5 & AN).
  exists out. split; [exact AN|].
  apply (C22_predict_spacing 1 _ s p move2 es [] out (seen_stroke _ _ _ _ _ A1) A3 A4 eq_refl AN).
Qed.

Lemma back_some : forall {X} (l : list X), l <> [] -> exists x, back l = Some x.
Proof.
  intros X l. induction l as [|a l IH] using rev_ind; [congruence|]. intros _. exists a. apply back_snoc.
Qed.
Lemma results_nonempty : forall hist s p i0 es seen, after_seen 1 hist s es seen -> ps_params s = Some p -> ps_last s = Some i0 ->
  exists prev, back (List.concat (map snd es)) = Some prev.
Proof.
  intros hist s p i0 es seen A1 A3 A4. apply back_some.
  destruct (C22_stroke_rate 1 _ s p i0 es (seen_stroke _ _ _ _ _ A1) A3 A4) as (d & o & rest & l & E0 & E & _).
  intros Q. apply (f_equal (map r_time)) in Q. rewrite Q in E. discriminate E.
Qed.

(** C24, C38, C36 with smoothing on. *)
Example C24_example : let p := R_params true false false true PredStrokeEnd in
  exists es prev out path tail h w, map fst es = [down; move1; move2] /\
    back (List.concat (map snd es)) = Some prev /\
    answers 1 (drawing p [down; move1; move2]) [CUpdate up []] = Ret [RResults OkStatus out] /\
    drawn_along (p_position p) prev w (i_pos up) path /\
    approaches (p_position p) (i_pos up) (1/100) (1/1) (last path prev) tail /\
    (List.length tail + h <= 20)%nat.
Proof.
  intros p. destruct (up_next true false false true PredStrokeEnd ltac:(fitting)) as (s & es & out & A1 & A2 & A3 & A4 & A5 & AN).
  destruct (results_nonempty _ _ _ _ _ _ A1 A3 A4) as (prev & BK).
  destruct (C24_end_of_stroke 1 _ s p move2 up [] out es prev (seen_stroke _ _ _ _ _ A1) A3 A4 eq_refl eq_refl BK AN)
    as (w & path & tail & h & _ & _ & _ & D & AP & LN & _).
  exists es, prev, out, path, tail, h, w. auto 10.
Qed.
Example C38_example : let p := R_params false false false true PredStrokeEnd in
  exists s es r es', after_stroke 1 (drawing p [down; move1; move2]) s es /\ es = (down, [r]) :: es' /\
    map fst es' = [move1; move2] /\ drawn (p_position p) r (i_pos down) (map (fun e => (i_pos (fst e), snd e)) es').
Proof.
  intros p. destruct (drawn_so_far false false false true PredStrokeEnd ltac:(fitting) [move1; move2] ltac:(auto)) as (s & es & A1 & A2 & A3 & A4 & A5).
  destruct (C38_spring_law 1 _ s p es (seen_stroke _ _ _ _ _ A1) A3) as (d & r & es' & E & _ & _ & _ & _ & D);
    [unfold in_stroke; rewrite A4; reflexivity|reflexivity|reflexivity|].
  exists s, es, r, es'. subst es. cbn in A2. injection A2 as -> A2. split; [apply (seen_stroke _ _ _ _ _ A1)|]. auto.
Qed.
Example C36_example : let p := R_params true false false true PredStrokeEnd in
  exists s es, after_seen 1 (drawing p [down; move1; move2]) s es [down; move1; move2] /\
  exists d r es' ws, es = (d, [r]) :: es' /\ List.length ws = List.length es' /\
    subseq (combine (map fst es) (i_pos d :: ws)) (combine [down; move1; move2] (smoothed (p_wobble p) [down; move1; move2])) /\
    drawn (p_position p) r (i_pos d) (combine ws (map snd es')).
Proof.
  intros p. destruct (drawn_so_far true false false true PredStrokeEnd ltac:(fitting) [move1; move2] ltac:(auto)) as (s & es & A1 & A2 & A3 & A4 & A5).
  exists s, es. split; [exact A1|].
  destruct (C36_smoothing 1 _ s p es _ A1 A3) as (d & r & es' & ws & E1 & E2 & E3 & _ & _ & _ & _ & D);
    [unfold in_stroke; rewrite A4; reflexivity|reflexivity|exact A5|].
  exists d, r, es', ws. auto.
Qed.

(** C25. *)
Example C25_example : let p := R_params false false false true PredStrokeEnd in
  let lift := at_ EUp 0 1 2 0 in
  exists pred out, answers 1 (drawing p [down; move1; move2]) [CPredict []] = Ret [RResults OkStatus pred] /\
    answers 1 (drawing p [down; move1; move2]) [CUpdate lift []] = Ret [RResults OkStatus out] /\
    (pred <> [] -> map tip_of out = map tip_of pred).
Proof.
  intros p lift. destruct (next_predict false false false true PredStrokeEnd ltac:(fitting) eq_refl) as (s & es & pred & A1 & A2 & A3 & A4 & A5 & AP).
  destruct (next_input false false false true PredStrokeEnd ltac:(fitting) [move1; move2] lift) as (s2 & es2 & out & _ & _ & _ & _ & _ & AN);
    auto; try (cbn; lra); try apply one_le_2pi; [discriminate|].
  exists pred, out. split; [exact AP|]. split; [exact AN|].
  apply (C25_prediction_is_lifting_the_pen 1 _ s p move2 lift [] [] out pred es (seen_stroke _ _ _ _ _ A1) A3 A4); auto.
Qed.

(** C31, C32, C34. *)
Example C31_example : let p := R_params true false false true PredStrokeEnd in
  exists out, answers 1 (drawing p [down; move1; move2]) [CUpdate move3 []] = Ret [RResults OkStatus out] /\
    Forall (reported_nearest [down; move1; move2; move3]
      (most_recent 10 (smooth_points (p_wobble p) [down; move1; move2; move3]))) out.
Proof.
  intros p. destruct (move3_next true false false true PredStrokeEnd ltac:(fitting)) as (s & es & out & A1 & A2 & A3 & A4 & A5 & AN).
  exists out. split; [exact AN|].
  apply (C31_closest_point_move 1 _ s p es [down; move1; move2] move3 [] out A1 A3 eq_refl eq_refl AN). intros _. exact A5.
Qed.
Example C32_example : let p := R_params true false true true PredStrokeEnd in
  exists out pts, answers 1 (drawing p [down; move1; move2]) [CUpdate up []] = Ret [RResults OkStatus out] /\
    held (p_stylus p) (smooth_points (p_wobble p) [down; move1; move2] ++ [(up, i_pos up)]) pts /\
    reported_normal [down; move1; move2; up] pts 2 out.
Proof.
  intros p. destruct (up_next true false true true PredStrokeEnd ltac:(fitting)) as (s & es & out & A1 & A2 & A3 & A4 & A5 & AN).
  destruct (C32_normal_projection_up 1 _ s p move2 es _ up [] out A1 A3 A4 eq_refl eq_refl eq_refl AN) as (pts & H1 & H2); [intros _; exact sorted3|].
  exists out, pts. auto.
Qed.
Example C34_example : let p := R_params true true true true PredStrokeEnd in
  exists es out hs pts, map fst es = [down; move1; move2] /\
    answers 1 (drawing p [down; move1; move2]) [CUpdate move3 []] = Ret [RResults OkStatus out] /\
    answers 1 (map unmitigated (drawing p [down; move1; move2])) [CUpdate move3 []] = Ret [RResults OkStatus hs] /\
    blended [down; move1; move2; move3] pts (R_loop true) (since_down es) 3 hs out.
Proof.
  intros p. destruct (move3_next true true true true PredStrokeEnd ltac:(fitting)) as (s & es & out & A1 & A2 & A3 & A4 & A5 & AN).
  destruct (C34_mitigation_move 1 _ s p es _ move3 [] out A1 A3 eq_refl eq_refl AN) as (hs & pts & H1 & H2 & H3); [intros _; exact A5|].
  exists es, out, hs, pts. auto.
Qed.
Example C34_predict_example : let p := R_params true true true true PredStrokeEnd in
  exists es out hs pts, map fst es = [down; move1; move2] /\
    answers 1 (drawing p [down; move1; move2]) [CPredict []] = Ret [RResults OkStatus out] /\
    answers 1 (map unmitigated (drawing p [down; move1; move2])) [CPredict []] = Ret [RResults OkStatus hs] /\
    blended [down; move1; move2] pts (R_loop true) (since_down es) 2 hs out.
Proof.
  intros p. destruct (next_predict true true true true PredStrokeEnd ltac:(fitting) eq_refl) as (s & es & out & A1 & A2 & A3 & A4 & A5 & AN).
  destruct (C34_mitigation_prediction 1 _ s p move2 es _ [] out A1 A3 A4 eq_refl eq_refl AN) as (hs & pts & H1 & H2 & H3); [intros _; exact A5|].
  exists es, out, hs, pts. auto.
Qed.

(** The result of Move1 without smoothing and mitigation: one step of the spring. *)
Lemma after_move1 : forall limit pred, fit false false false limit pred ->
  let p := R_params false false false limit pred in
  exists s r r1, after_seen 1 (drawing p [down; move1]) s [(down, [r]); (move1, [r1])] [down; move1] /\
    ps_params s = Some p /\ ps_last s = Some move1 /\
    answers 1 (drawing p [down]) [CUpdate move1 []] = Ret [RResults OkStatus [r1]] /\
    r_pos r1 = mkVec2 (1 : R) (0 : R) /\ r_vel r1 = mkVec2 (1 : R) (0 : R) /\ r_time r1 = 1.
Proof.
  intros limit pred FIT p. pose proof PI_RGT_0 as PG.
  destruct (next_input false false false limit pred FIT [] move1) as (s & es & out & A1 & A2 & A3 & A4 & A5 & AN);
    auto; try (cbn; lra); try apply one_le_2pi; [discriminate|]. fold p in A1, A3, AN.
  assert (IS : in_stroke s = true) by (unfold in_stroke; rewrite A4; reflexivity).
  destruct (C38_spring_law 1 _ s p es (seen_stroke _ _ _ _ _ A1) A3 IS eq_refl eq_refl) as (d & r & es' & E & Rp & Rv & _ & Rt & _).
  subst es. cbn [map fst] in A2. injection A2 as -> A2. destruct es'; [|discriminate A2].
  assert (L1' : List.length out = 1%nat).
  { destruct limit.
    - pose proof (C50_exact_count 1 _ s p down move1 [] out _ r 0 (seen_stroke _ _ _ _ _ A1) A3 A4 eq_refl eq_refl eq_refl AN) as L1.
      cbv zeta in L1. cbn [p R_params p_sampling R_sampling sp_max_angle sp_rate move1 down at_ i_time] in L1.
      specialize (L1 ltac:(lra)). rewrite Rv in L1.
      assert (N0 : norm (mkVec2 (0 : R) (0 : R)) = 0) by (unfold norm; cbn; replace (0 * 0 + 0 * 0) with 0 by ring; apply sqrt_0).
      specialize (L1 (or_intror (conj (or_introl N0) eq_refl))).
      replace ((1 - 0) * 1) with (IZR 1) in L1 by lra. replace (0 / (PI / 4)) with (IZR 0) in L1 by (field; lra). rewrite !Zceil_IZR in L1. lia.
    - pose proof (C22_move_exact_count 1 _ s p down move1 [] out (seen_after _ _ _ _ _ A1) A3 A4 eq_refl eq_refl AN) as LN.
      cbn in LN. replace ((1 - 0) * 1) with (IZR 1) in LN by lra. rewrite Zceil_IZR in LN. lia. }
  destruct out as [|r1 [|r2 out]]; try discriminate L1'. clear L1'.
  destruct (C22_move_evenly_spaced 1 _ s p down move1 [] [r1] (seen_after _ _ _ _ _ A1) A3 A4 eq_refl AN) as (E1 & _ & _).
  destruct (one_more_move _ _ _ _ _ move1 [] [r1] A1 eq_refl AN) as (s' & A1' & A3' & A4'). rewrite A3 in A3'.
  change (drawing p [down] ++ [CUpdate move1 []]) with (drawing p [down; move1]) in A1'. cbn [app] in A1'.
  assert (IS' : in_stroke s' = true) by (unfold in_stroke; rewrite A4'; reflexivity).
  destruct (C38_spring_law 1 _ s' p _ (seen_stroke _ _ _ _ _ A1') A3' IS' eq_refl eq_refl) as (d' & r' & es' & E & _ & _ & _ & _ & D).
  injection E as <- <- <-. destruct D as [D _]. destruct (D 0%nat r1 eq_refl) as (q & Q & LAW). injection Q as <-.
  specialize (E1 0%nat r1 eq_refl).
  cbn [p R_params p_position R_position R_loop pp_spring pp_drag fst move1 down at_ i_pos i_time map List.length] in LAW, E1.
  unfold spring_law, along in LAW. cbn [vx vy pp_spring pp_drag] in LAW. rewrite Rp, Rv, Rt in LAW. cbn [down at_ i_pos i_time vx vy] in LAW.
  assert (ET : r_time r1 = 1) by (rewrite E1; cbn; lra). rewrite ET in LAW. cbn [INR] in LAW.
  destruct LAW as (L1 & L2 & L3 & L4 & L5 & L6).
  cbn [snd List.length INR R_position pp_spring pp_drag] in L1, L2.
  assert (VX : vx (r_vel r1) = 1) by (rewrite L3, L1; lra). assert (VY : vy (r_vel r1) = 0) by (rewrite L4, L2; lra).
  assert (PX : vx (r_pos r1) = 1) by (rewrite L5, VX; lra). assert (PY : vy (r_pos r1) = 0) by (rewrite L6, VY; lra).
  exists s', r, r1. split; [exact A1'|]. split; [exact A3'|]. split; [exact A4'|]. split; [exact AN|].
  destruct (r_pos r1) as [px py], (r_vel r1) as [ux uy]. cbn [vx vy] in *. rewrite PX, PY, VX, VY. split; [reflexivity|]. split; [reflexivity|exact ET].
Qed.

(** C50: a turn by a right angle is drawn with two results rather than one. *)
Example C50_example : let p := R_params false false false true PredStrokeEnd in
  exists out1 out2,
    answers 1 (drawing p [down]) [CUpdate move1 []] = Ret [RResults OkStatus out1] /\ List.length out1 = 1%nat /\
    answers 1 (drawing p [down; move1]) [CUpdate move2 []] = Ret [RResults OkStatus out2] /\ List.length out2 = 2%nat.
Proof.
  intros p. pose proof PI_RGT_0 as PG.
  destruct (after_move1 true PredStrokeEnd ltac:(fitting)) as (s & r & r1 & A1 & A3 & A4 & AN & RP & RV & RT). fold p in A1, A3, AN.
  destruct (next_input false false false true PredStrokeEnd ltac:(fitting) [move1] move2) as (_ & _ & out & _ & _ & _ & _ & _ & AN2);
    auto; try (cbn; lra); try apply one_le_2pi; [apply moves_differ; cbn; lra|]. fold p in AN2.
  exists [r1], out. split; [exact AN|]. split; [reflexivity|]. split; [exact AN2|].
  pose proof (C50_exact_count 1 _ s p move1 move2 [] out _ r1 (PI / 2) (seen_stroke _ _ _ _ _ A1) A3 A4 eq_refl eq_refl eq_refl AN2) as L.
  cbv zeta in L. cbn [p R_params p_sampling R_sampling sp_max_angle sp_rate] in L.
  assert (EV : estimated_velocity (p_position p) r1 move1 move2 = mkVec2 (0 : R) (1 : R)).
  { unfold estimated_velocity. cbn [p R_params p_position R_position pp_spring move1 move2 at_ i_pos i_time vx vy]. rewrite RP, RV. cbn [vx vy].
    f_equal; lra. }
  rewrite EV, RV in L.
  assert (AG : is_angle (mkVec2 (1 : R) (0 : R)) (mkVec2 (0 : R) (1 : R)) (PI / 2)).
  { unfold is_angle, norm. cbn [vx vy]. rewrite cos_PI2.
    replace (1 * 1 + 0 * 0) with 1 by ring. replace (0 * 0 + 1 * 1) with 1 by ring. rewrite sqrt_1. lra. }
  specialize (L ltac:(lra) (or_introl AG)). cbn [move1 move2 at_ i_time] in L.
  replace ((2 - 1) * 1) with (IZR 1) in L by lra. replace (PI / 2 / (PI / 4)) with (IZR 2) in L by (field; lra). rewrite !Zceil_IZR in L. lia.
Qed.

(** ** Kalman prediction after Down and Move1 *)
Definition R_pts : list point := [(down, mkVec2 (0 : R) (0 : R)); (move1, mkVec2 (1 : R) (0 : R))].
Lemma raw_points : smooth_points (R_wobble false) [down; move1] = R_pts.
Proof. reflexivity. Qed.
Lemma R_kalman_x : let g := kalman (1/100) (1/10) [0; 1] in
  0 < mean g 0%nat < 1 /\ 0 < mean g 1%nat /\ 0 < mean g 2%nat /\ 0 < mean g 3%nat.
Proof.
  cbv zeta. set (h := propagate (1/100) (first_guess 0)).
  assert (M : forall i, (i < 4)%nat -> mean h i = 0).
  { intros i I. four i I; unfold h, propagate, first_guess, sum4; cbn [mean Nat.eqb]; ring. }
  assert (C0 : cov h 0%nat 0%nat = 1 + 1 + 1/4 + 1/36 + 1/100/36) by (unfold h, propagate, first_guess, sum4, taylor, noise_gain; cbn; field).
  assert (C1 : cov h 1%nat 0%nat = 1 + 1/2 + 1/12 + 1/100/12) by (unfold h, propagate, first_guess, sum4, taylor, noise_gain; cbn; field).
  assert (C2 : cov h 2%nat 0%nat = 1/2 + 1/6 + 1/100/6) by (unfold h, propagate, first_guess, sum4, taylor, noise_gain; cbn; field).
  assert (C3 : cov h 3%nat 0%nat = 1/6 + 1/100/6) by (unfold h, propagate, first_guess, sum4, taylor, noise_gain; cbn; field).
  change (kalman (1/100) (1/10) [0; 1]) with (observe (1/10) h 1).
  assert (E : forall i, (i < 4)%nat -> mean (observe (1/10) h 1) i = cov h i 0%nat / (cov h 0%nat 0%nat + 1/10)).
  { intros i I. unfold observe, innovation. cbn [mean]. rewrite !M by lia. field. rewrite C0. lra. }
  rewrite !E by lia. rewrite C0, C1, C2, C3. lra.
Qed.
Lemma R_kalman_y : let g := kalman (1/100) (1/10) [0; 0] in
  mean g 0%nat = 0 /\ mean g 1%nat = 0 /\ mean g 2%nat = 0 /\ mean g 3%nat = 0.
Proof.
  cbv zeta. set (h := propagate (1/100) (first_guess 0)).
  assert (M : forall i, (i < 4)%nat -> mean h i = 0).
  { intros i I. four i I; unfold h, propagate, first_guess, sum4; cbn [mean Nat.eqb]; ring. }
  change (kalman (1/100) (1/10) [0; 0]) with (observe (1/10) h 0). unfold observe. cbn [mean]. rewrite !M by lia. repeat split; ring.
Qed.

Lemma norm_x : forall x : R, 0 <= x -> norm (mkVec2 x (0 : R)) = x.
Proof. intros x P. unfold norm. cbn [vx vy]. rsimp. replace (x * x + 0 * 0) with (x * x) by ring. apply sqrt_square. exact P. Qed.
Lemma dist_x : forall a b : R, a <= b -> dist (mkVec2 a (0 : R)) (mkVec2 b (0 : R)) = b - a.
Proof.
  intros a b P. unfold dist. cbn [vx vy]. rsimp.
  match goal with |- sqrt ?x = _ => replace x with ((b - a) * (b - a)) by ring end. apply sqrt_square. lra.
Qed.
Lemma dist_x' : forall a b : R, b <= a -> dist (mkVec2 a (0 : R)) (mkVec2 b (0 : R)) = a - b.
Proof. intros a b P. rewrite dist_sym. apply dist_x. exact P. Qed.

(** The estimate is between the two inputs, with positive derivatives in direction x. *)
Lemma R_estimate : exists x v a j, estimate R_kalman R_pts =
    mkKEst (mkVec2 (x : R) (0 : R)) (mkVec2 (v : R) (0 : R)) (mkVec2 (a : R) (0 : R)) (mkVec2 (j : R) (0 : R)) /\
  0 < x < 1 /\ 0 < v /\ 0 < a /\ 0 < j.
Proof.
  pose proof R_kalman_x as KX. pose proof R_kalman_y as KY. cbv zeta in *.
  set (gx := kalman (1/100) (1/10) [0; 1]) in *. set (gy := kalman (1/100) (1/10) [0; 0]) in *.
  set (dt := (1 - 0) / INR 2).
  assert (E : estimate R_kalman R_pts =
    mkKEst (mkVec2 (mean gx 0%nat : R) (mean gy 0%nat : R)) (mkVec2 (mean gx 1%nat / dt : R) (mean gy 1%nat / dt : R))
      (mkVec2 (1/2 * (mean gx 2%nat / dt ^ 2) : R) (1/2 * (mean gy 2%nat / dt ^ 2) : R))
      (mkVec2 (1/10 * (mean gx 3%nat / dt ^ 3) : R) (1/10 * (mean gy 3%nat / dt ^ 3) : R))) by reflexivity.
  rewrite E. destruct KY as (-> & -> & -> & ->). assert (DT : dt = / 2) by (unfold dt; cbn [INR]; lra). rewrite DT.
  exists (mean gx 0%nat), (mean gx 1%nat / / 2), (1/2 * (mean gx 2%nat / (/ 2) ^ 2)), (1/10 * (mean gx 3%nat / (/ 2) ^ 3)).
  split; [f_equal; f_equal; field|]. clearbody gx gy. split; [lra|].
  split; [|split]; (apply Rmult_lt_0_compat; [lra|]) || idtac.
  - lra.
  - apply Rdiv_lt_0_compat; lra.
  - apply Rdiv_lt_0_compat; lra.
Qed.

Lemma R_catch_up : forall r1 : Result, r_pos r1 = mkVec2 (1 : R) (0 : R) -> r_vel r1 = mkVec2 (1 : R) (0 : R) ->
  (catch_up_steps R_kalman 1 r1 (estimate R_kalman R_pts) <= 1)%Z.
Proof.
  intros r1 RP RV. destruct R_estimate as (x & v & a & j & E & X & V & _). rewrite E. unfold catch_up_steps. rewrite RP, RV. cbn [ke_pos ke_vel].
  rewrite !norm_x, dist_x' by lra. cbn [R_kalman kp_catchup].
  apply Z.max_lub; [lia|]. apply Z.le_trans with (Zceil 1); [|rewrite Zceil_IZR; lia]. apply Zceil_le.
  assert (M1 : Rmin (1 - x) (fmaxval (Arith := real_arith)) <= 1 - x) by apply Rmin_l.
  assert (M0 : 0 <= Rmin (1 - x) (fmaxval (Arith := real_arith))).
  { apply Rmin_glb; [lra|]. cbn. apply IZR_le. discriminate. }
  assert (M2 : 1 <= Rmax (Rmax 1 v) (1/100)) by (eapply Rle_trans; [apply (Rmax_l 1 v)|apply Rmax_l]).
  set (m := Rmin _ _) in *. set (w := Rmax _ (1/100)) in *. clearbody m w.
  assert (0 < w) by lra. unfold Rdiv. rewrite Rmult_1_r. apply Rmult_le_reg_r with w; [lra|]. rewrite Rmult_assoc, Rinv_l by lra. nra.
Qed.
Lemma R_confident : 0 < confidence R_kalman R_pts (mkVec2 (1 : R) (0 : R)) (estimate R_kalman R_pts) <= 1.
Proof.
  split; [|apply confidence_range; cbn; [lra|reflexivity]].
  destruct R_estimate as (x & v & a & j & E & X & V & AA & J). rewrite E. unfold confidence. cbv zeta.
  cbn [ke_pos ke_vel ke_acc ke_jerk vx vy R_kalman kp_interval kp_conf cp_samples cp_max_dist cp_min_speed cp_max_speed cp_max_dev cp_baseline].
  set (g := x + v * (1/2) + a * (1/2) ^ 2 / 2 + j * (1/2) ^ 3 / 6).
  assert (G : x < g) by (unfold g; nra).
  replace (0 + 0 * (1/2) + 0 * (1/2) ^ 2 / 2 + 0 * (1/2) ^ 3 / 6) with 0 by field.
  rewrite (dist_x' 1 x), (dist_x x g) by lra.
  assert (P2 : 0 < 1 - ramp 0 4 (1 - x)).
  { unfold ramp. destruct (Rle_dec (1 - x) 0); [lra|]. destruct (Rle_dec 4 (1 - x)); lra. }
  assert (P3 : 0 < ramp 0 1 ((g - x) / (1/2))).
  { assert (0 < (g - x) / (1/2)) by (apply Rdiv_lt_0_compat; lra). unfold ramp. destruct (Rle_dec _ 0); [lra|]. destruct (Rle_dec 1 _); [lra|]. apply Rdiv_lt_0_compat; lra. }
  assert (P4 : forall d, 0 < 1/2 + (1 - 1/2) * (1 - ramp 0 2 d)).
  { intros d. pose proof (ramp_range 0 2 d). lra. }
  assert (P1 : 0 < Rmin 1 (INR (List.length R_pts) / IZR 2)) by (apply Rmin_glb_lt; cbn; lra).
  repeat (apply Rmult_lt_0_compat; [|auto]); auto.
Qed.

Lemma R_kalman_prediction : let p := R_params false false false true (PredKalman R_kalman) in
  exists s es r1 out, after_seen 1 (drawing p [down; move1]) s es [down; move1] /\ map fst es = [down; move1] /\ ps_params s = Some p /\
    back (List.concat (map snd es)) = Some r1 /\ r_pos r1 = mkVec2 (1 : R) (0 : R) /\ r_vel r1 = mkVec2 (1 : R) (0 : R) /\ r_time r1 = 1 /\
    answers 1 (drawing p [down; move1]) [CPredict []] = Ret [RResults OkStatus out] /\
    predicted 1 r1 (estimate R_kalman R_pts) 1 1 out.
Proof.
  intros p. destruct (after_move1 true (PredKalman R_kalman) ltac:(fitting)) as (s & r & r1 & A1 & A3 & A4 & _ & RP & RV & RT). fold p in A1, A3.
  pose proof one_le_2pi as O. pose proof (R_catch_up r1 RP RV) as CU.
  assert (IS : in_stroke s = true) by (unfold in_stroke; rewrite A4; reflexivity).
  assert (SO : sorted_if_smoothing (p_wobble p) [down; move1]) by discriminate.
  assert (PTS : forall ws, List.length ws = 2%nat -> subseq (combine [down; move1] ws) (smooth_points (p_wobble p) [down; move1]) ->
    combine [down; move1] ws = R_pts).
  { intros ws L SQ. change (smooth_points (p_wobble p) [down; move1]) with R_pts in SQ. apply subseq_all; [exact SQ|].
    rewrite combine_length, L. reflexivity. }
  destruct (C45_kalman_predict_defined 1 (drawing p [down; move1]) s p R_kalman _ _ [] (le_n 1) ltac:(repeat (constructor; try exact O)) A1 A3 IS eq_refl eq_refl SO)
    as (ws & z & W1 & W2 & W3 & W4).
  cbn [map fst snd List.concat app] in W1, W2, W3. apply some_inj in W3. subst z. cbn [map fst] in W4. rewrite (PTS ws W1 W2) in W4.
  destruct W4 as (out & AN).
  { cbn [p R_params p_sampling R_sampling sp_rate R_kalman kp_interval]. unfold INT_MAX. lra. }
  { cbn [p R_params p_sampling R_sampling sp_rate]. eapply Z.le_trans; [exact CU|discriminate]. }
  clear ws W1 W2.
  destruct (C40_kalman_prediction 1 _ s p R_kalman _ _ [] out A1 A3 eq_refl eq_refl AN SO) as (ws & q & z & W1 & W2 & W3 & W4 & W5).
  cbn [map fst snd List.concat app] in W1, W2, W4. apply some_inj in W4. subst z. cbv zeta in W5. cbn [map fst] in W5.
  pose proof (PTS ws W1 W2) as EP. rewrite EP in W5.
  assert (EQ : q = mkVec2 (1 : R) (0 : R)).
  { destruct ws as [|w1 [|w2 [|w3 ws]]]; try discriminate W1. cbn [combine] in EP. injection EP as -> ->. apply some_inj in W3. symmetry. exact W3. }
  subst q. cbn [List.length R_kalman kp_min_stable] in W5. change (Z.of_nat 2 <? 2)%Z with false in W5. cbv iota in W5.
  cbn [p R_params p_sampling R_sampling sp_rate kp_interval] in W5. fold R_kalman in W5.
  assert (E1 : catch_up_steps R_kalman 1 r1 (estimate R_kalman R_pts) = 1%Z) by (apply Z.le_antisymm; [exact CU|apply Z.le_max_l]).
  rewrite E1 in W5.
  assert (E2 : Zceil (kp_interval R_kalman * 1 * confidence R_kalman R_pts (mkVec2 (1 : R) (0 : R)) (estimate R_kalman R_pts)) = 1%Z).
  { apply Zceil_imp. cbn [kp_interval R_kalman]. fold R_kalman. pose proof R_confident. cbn [Z.sub Z.add Z.opp Z.pos_sub]. lra. }
  assert (W6 := eq_ind _ (fun k => predicted 1 r1 (estimate R_kalman R_pts) (Z.to_nat 1) (Z.to_nat k) out) W5 _ E2).
  exists s, [(down, [r]); (move1, [r1])], r1, out. do 8 (split; [first [assumption | reflexivity]|]). exact W6.
Qed.

(** C40, C41, C42, C45. *)
Example C40_example : let p := R_params false false false true (PredKalman R_kalman) in
  exists z out, r_pos z = mkVec2 (1 : R) (0 : R) /\ r_time z = 1 /\
    answers 1 (drawing p [down; move1]) [CPredict []] = Ret [RResults OkStatus out] /\
    List.length out = 2%nat /\ predicted 1 z (estimate R_kalman R_pts) 1 1 out.
Proof.
  intros p. destruct R_kalman_prediction as (s & es & r1 & out & A1 & A2 & A3 & A4 & A5 & A6 & A7 & A8 & A9).
  exists r1, out. do 3 (split; [assumption|]). split; [|exact A9]. destruct A9 as (cx & cy & ex & ey & _ & _ & _ & L & _). exact L.
Qed.
Example C42_example : 0 < 1/10 /\ covariance (cov (kalman (1/100) (1/10) [0; 1])).
Proof. split; [lra|]. apply covariance_kalman; lra. Qed.

(** C41: the documentation of prediction_interval promises that the prediction,
    apart from the catch-up, is never longer than that.  Here it is 1 second
    rather than 1/2. *)
Theorem C41_duration_refuted : exists p kp hist s es seen z e out a b,
  after_seen 1 hist s es seen /\ ps_params s = Some p /\ p_prediction p = PredKalman kp /\
  answers 1 hist [CPredict []] = Ret [RResults OkStatus out] /\
  predicted (sp_rate (p_sampling p)) z e 1 1 out /\
  out = [a; b] /\ kp_interval kp < r_time b - r_time a.
Proof.
  destruct R_kalman_prediction as (s & es & r1 & out & A1 & A2 & A3 & A4 & A5 & A6 & A7 & A8 & A9).
  pose proof A9 as (cx & cy & ex & ey & _ & _ & _ & L & N).
  destruct out as [|a [|b [|c out]]]; try discriminate L.
  exists (R_params false false false true (PredKalman R_kalman)), R_kalman, (drawing (R_params false false false true (PredKalman R_kalman)) [down; move1]), s, es, [down; move1], r1, (estimate R_kalman R_pts), [a; b], a, b.
  do 3 (split; [assumption || reflexivity|]). split; [exact A8|]. split; [exact A9|]. split; [reflexivity|].
  destruct (N 0%nat a eq_refl) as [TA _]. destruct (N 1%nat b eq_refl) as [TB _]. rewrite TA, TB. cbn [INR R_kalman kp_interval]. lra.
Qed.

(** ** A resting pen: C37, C43 *)
Definition still (e : event_type) (t : R) : Input := at_ e 2 3 t (1/2).
Definition stay : Vec2 := mkVec2 (2 : R) (3 : R).
Lemma still_drawn : forall wob loop normal limit pred, fit wob loop normal limit pred ->
  let p := R_params wob loop normal limit pred in let is := [still EDown 0; still EMove 1; still EMove 2] in
  exists s es, after_seen 1 (drawing p is) s es is /\ map fst es = is /\ ps_params s = Some p /\ ps_last s = Some (still EMove 2) /\
    Forall (at_point stay) is.
Proof.
  intros wob loop normal limit pred FIT p is. pose proof one_le_2pi as O.
  destruct (C51_whole_stroke_accepted 1 p (still EDown 0) [still EMove 1; still EMove 2] (le_n 1) (R_params_valid _ _ _ _ _ FIT)
    ltac:(reflexivity) (limit_fits limit) eq_refl) as (s & es & A1 & A2 & A3 & A4).
  - repeat constructor.
  - repeat (constructor; [exact O|]). constructor.
  - reflexivity.
  - cbn [paced_well p p_sampling R_params R_sampling sp_rate sp_max_outputs still at_ i_time].
    split; [apply moves_differ; cbn; lra|split; [cbn; lra|split; [cbn; lra|split; [apply moves_differ; cbn; lra|repeat split; cbn; lra]]]].
  - exists s, es. repeat (split; [assumption|]). repeat constructor.
Qed.
Example C37_example : let p := R_params true true true true PredStrokeEnd in
  exists out, answers 1 (drawing p [still EDown 0; still EMove 1; still EMove 2]) [CUpdate (still EUp 3) []] = Ret [RResults OkStatus out] /\
    out <> [] /\ Forall (resting stay) out.
Proof.
  intros p. destruct (still_drawn true true true true PredStrokeEnd (no_kalman_fit _ _ _ _ ltac:(auto))) as (s & es & A1 & A2 & A3 & A4 & A5). fold p in A1, A3.
  pose proof one_le_2pi as O. set (hist := drawing p _) in *. pose proof (seen_after _ _ _ _ _ A1) as AF.
  assert (T : tame (hist ++ [CUpdate (still EUp 3) []])).
  { change (hist ++ [CUpdate (still EUp 3) []]) with (drawing p [still EDown 0; still EMove 1; still EMove 2; still EUp 3]).
    apply tame_drawing; [reflexivity|repeat (constructor; [exact O|]); constructor|reflexivity]. }
  destruct (C51_next_input_accepted 1 hist s p (still EMove 2) (still EUp 3) [] (le_n 1) T AF A3 A4) as (out & AN).
  - right. reflexivity.
  - apply moves_differ. cbn. lra.
  - cbn. lra.
  - cbn. lra.
  - apply limit_fits.
  - exists out. split; [exact AN|]. split.
    + destruct (C06_up_at_least_one 1 _ _ _ _ AN eq_refl) as (r & o & E). intros E0. rewrite E0 in E. discriminate E.
    + apply (C37_resting_update 1 hist s es _ stay (still EUp 3) [] out A1 (fun _ => A5) eq_refl AN).
Qed.
Example C43_example : let p := R_params false false false true (PredKalman R_kalman) in
  exists r, answers 1 (drawing p [still EDown 0; still EMove 1; still EMove 2]) [CPredict []] = Ret [RResults OkStatus [r]] /\ resting stay r.
Proof.
  intros p. destruct (still_drawn false false false true (PredKalman R_kalman) ltac:(fitting)) as (s & es & A1 & A2 & A3 & A4 & A5). fold p in A1, A3.
  pose proof one_le_2pi as O. set (hist := drawing p _) in *. pose proof (seen_after _ _ _ _ _ A1) as AF.
  assert (IS : in_stroke s = true) by (unfold in_stroke; rewrite A4; reflexivity).
  destruct (C45_kalman_predict_defined 1 hist s p R_kalman _ _ [] (le_n 1) ltac:(repeat (constructor; try exact O)) A1 A3 IS eq_refl eq_refl ltac:(discriminate))
    as (ws & z & W1 & W2 & W3 & W4).
  pose proof (C37_resting_results 1 hist s es _ stay A1 IS A5) as RS.
  assert (RZ : resting stay z).
  { assert (IN : In z (List.concat (map snd es))) by (eapply nth_error_In; exact W3).
    apply in_concat in IN. destruct IN as (l & I1 & I2). apply in_map_iff in I1. destruct I1 as (e & <- & I1).
    rewrite Forall_forall in RS. specialize (RS e I1). rewrite Forall_forall in RS. exact (RS z I2). }
  assert (PT : combine (map fst es) ws = [(still EDown 0, stay); (still EMove 1, stay); (still EMove 2, stay)]).
  { apply subseq_all; [exact W2|]. rewrite combine_length, map_length, W1, Nat.min_id. transitivity (List.length (map fst es)); [symmetry; apply map_length|]. rewrite A2. reflexivity. }
  assert (EE : estimate R_kalman (combine (map fst es) ws) = mkKEst stay (mkVec2 (0 : R) (0 : R)) (mkVec2 (0 : R) (0 : R)) (mkVec2 (0 : R) (0 : R))).
  { rewrite PT. apply C43_estimate_of_resting_pen; [repeat constructor|discriminate|]. intros E. assert (E2 : 0 = 2) by exact E. lra. }
  rewrite EE in W4. destruct W4 as (out & AN).
  { cbn [p R_params p_sampling R_sampling sp_rate R_kalman kp_interval]. unfold INT_MAX. lra. }
  { unfold catch_up_steps. destruct RZ as (Z1 & Z2 & _). rewrite Z1, Z2. cbn [ke_pos ke_vel].
    assert (D0 : dist stay stay = 0) by (unfold dist, stay; cbn [vx vy]; rewrite <- sqrt_0; f_equal; ring). rewrite D0.
    assert (M0 : Rmin 0 fmaxval = 0) by (apply Rmin_left; apply IZR_le; discriminate). rewrite M0. unfold Rdiv. rewrite !Rmult_0_l, Zceil_IZR. discriminate. }
  assert (L3 : List.length es = 3%nat) by (transitivity (List.length (map fst es)); [symmetry; apply map_length|rewrite A2; reflexivity]).
  assert (TS : map (fun e => i_time (fst e)) es = [0; 1; 2]) by (transitivity (map i_time (map fst es)); [symmetry; apply map_map|rewrite A2; reflexivity]).
  assert (K := C43_resting_kalman_prediction 1 hist s p R_kalman es _ stay [] out A1 A3 eq_refl A5).
  assert (C3 : (Z.of_nat (List.length es) <? kp_min_stable R_kalman)%Z = false) by (rewrite L3; reflexivity).
  cbv zeta in K. lapply K; [clear K; intros K; specialize (K AN)|].
  - match type of K with if ?b then _ else _ => change b with (Z.of_nat (List.length es) <? kp_min_stable R_kalman)%Z in K end. rewrite C3 in K.
    destruct K as (r & -> & RR). exists r. split; [exact AN|exact RR].
  - rewrite TS. intros E. assert (E2 : 0 = 2) by exact E. lra.
Qed.
