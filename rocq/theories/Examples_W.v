(** * C52: the theorems applied to a long zigzag, and what a low output rate does. *)
From Coq Require Import ZArith Bool List Sorted Reals Lra Lia Psatz.
From Verif Require Import Props_Bounded.
Import ListNotations.
Open Scope R_scope.

#[local] Existing Instance real_arith.

(** The recommended parameters, in exact arithmetic; everything is switched on. *)
Definition W_wobble : WobbleParams := mkWobbleParams true (4/100 : R) (131/100 : R) (144/100 : R).
Definition W_loop : LoopParams := mkLoopParams true (0 : R) (25 : R) (1 : R) (1/2 : R) (1/2 : R) 3.
Definition W_position : PositionParams := mkPositionParams (11/32400 : R) (72 : R) W_loop.
Definition W_sampling : SamplingParams := mkSamplingParams (180 : R) (1/1000 : R) 20 1000 (-1 : R).
Definition W_stylus : StylusParams := mkStylusParams 10 true 10 (1/10 : R).
Definition W_params : StrokeModelParams := mkParams W_wobble W_position W_sampling W_stylus PredStrokeEnd.

Ltac decide_R :=
  repeat match goal with
  | |- context [Rltb ?a ?b] => first [rewrite (proj2 (Rltb_false a b)) by lra | rewrite (proj2 (Rltb_true a b)) by lra]
  | |- context [Rleb ?a ?b] => first [rewrite (proj2 (Rleb_false a b)) by lra | rewrite (proj2 (Rleb_true a b)) by lra]
  | |- context [Reqb ?a ?b] => first [rewrite (proj2 (Reqb_false a b)) by lra | rewrite (proj2 (Reqb_true a b)) by lra]
  end.
Lemma W_valid : validate_params W_params = OkStatus.
Proof.
  unfold validate_params. cbn [W_params p_position p_stylus p_wobble p_sampling p_prediction W_position pp_loop W_loop lp_enabled W_stylus sy_normal].
  assert (V1 : validate_wobble W_wobble = OkStatus).
  { unfold validate_wobble, W_wobble, validate_ge0_d, validate_ge0_f, validate_finite_d, validate_finite_f. cbn [wp_enabled wp_timeout wp_floor wp_ceiling].
    rsimp. cbn [negb]. decide_R. reflexivity. }
  assert (V2 : validate_position W_position = OkStatus).
  { unfold validate_position, validate_loop, W_position, W_loop, validate_gt0_f, validate_finite_f. cbn [pp_loop pp_spring pp_drag lp_enabled lp_speed_lower lp_speed_upper lp_strength_lower lp_strength_upper lp_window lp_min_samples].
    unfold kMaxSamplingWindow. rsimp. cbn [negb]; decide_R; reflexivity. }
  assert (V3 : validate_sampling W_sampling = OkStatus).
  { unfold validate_sampling, W_sampling, validate_gt0_f, validate_gt0_d, validate_gt0_i, validate_finite_f, validate_finite_d. cbn [sp_rate sp_stop sp_max_iter sp_max_outputs sp_max_angle].
    rsimp. decide_R; reflexivity. }
  assert (V4 : validate_stylus W_stylus = OkStatus).
  { unfold validate_stylus, W_stylus, validate_gt0_d, validate_gt0_i, validate_finite_d. cbn [sy_normal sy_min_samples sy_min_duration sy_max_samples].
    rsimp. decide_R; reflexivity. }
  cbn [andb negb]. fold W_loop W_position W_stylus. rewrite V1, V2, V3, V4. reflexivity.
Qed.
Lemma W_damped : well_damped W_params.
Proof. unfold well_damped. cbn. lra. Qed.

(** A zigzag between (0, 0) and (1, 0), one input every 1/100 s, any number of them. *)
Definition zig (e : event_type) (k : nat) : Input :=
  mkInput e (mkVec2 (if Nat.odd k then 1 else 0 : R) (0 : R)) (INR k / 100 : R) (1/2 : R) (1/2 : R) (1 : R).
Definition zigzag (n : nat) : list Input := zig EDown 0 :: map (zig EMove) (seq 1 n).
Definition middle : Vec2 := mkVec2 (1/2 : R) (0 : R).

Lemma zig_near : forall e k, dist (i_pos (zig e k)) middle <= 1/2.
Proof.
  intros e k. unfold dist, middle, zig. cbn [i_pos vx vy].
  assert (E : forall x y : R, x = 1/2 * (1/2) -> sqrt x <= 1/2) by (intros x _ ->; rewrite sqrt_square; lra).
  apply (E _ 0). destruct (Nat.odd k); field.
Qed.
Lemma zigzag_near : forall n, Forall (fun i => dist (i_pos i) middle <= 1/2) (zigzag n).
Proof. intros n. constructor; [apply zig_near|]. apply Forall_map, Forall_forall. intros k _. apply zig_near. Qed.
Lemma zig_times : forall l k, Sorted Rle (map i_time (map (zig EMove) (seq k l))).
Proof.
  induction l as [|l IH]; intros k; [constructor|]. cbn [seq map]. constructor; [apply IH|]. destruct l; constructor.
  unfold zig. cbn [i_time]. rewrite S_INR. lra.
Qed.
Lemma zigzag_sorted : forall n, Sorted Rle (map i_time (zigzag n)).
Proof.
  intros n. cbn [zigzag map]. constructor; [apply zig_times|]. destruct n; constructor. unfold zig. cbn [i_time INR]. lra.
Qed.
Lemma zig_paced : forall l k e, paced_well W_sampling (zig e k) (map (zig EMove) (seq (S k) l)).
Proof.
  induction l as [|l IH]; intros k e; [exact I|]. cbn [seq map paced_well].
  assert (T : forall e, i_time (zig e (S k)) = (INR k + 1) / 100) by (intros; unfold zig; cbn [i_time]; rewrite S_INR; reflexivity).
  assert (T0 : i_time (zig e k) = INR k / 100) by reflexivity.
  split; [|split; [|split; [|apply IH]]].
  - intros E. apply (f_equal i_time) in E. rewrite T, T0 in E. apply Rmult_eq_reg_r in E; lra.
  - rewrite T, T0. lra.
  - rewrite T, T0. cbn [W_sampling sp_rate sp_max_outputs]. lra.
Qed.

Example C52_example : forall n, (Z.of_nat n < 1000000)%Z ->
  exists s es, after_seen 1 (drawing W_params (zigzag n)) s es (zigzag n) /\ map fst es = zigzag n /\
    Forall (fun e => Forall (fun r => dist (r_pos r) middle <= 7/4) (snd e)) es.
Proof.
  intros n N. assert (O : (1 : R) <= 2 * PI) by (pose proof PI2_3_2; lra).
  destruct (C51_whole_stroke_accepted 1 W_params (zig EDown 0) (map (zig EMove) (seq 1 n)) (le_n 1) W_valid ltac:(reflexivity) ltac:(left; reflexivity) eq_refl) as (s & es & A1 & A2 & A3 & A4).
  - apply Forall_map, Forall_forall. reflexivity.
  - constructor; [exact O|]. apply Forall_map, Forall_forall. intros k _. exact O.
  - cbn [List.length]. rewrite map_length, seq_length. unfold INT_MAX. lia.
  - apply zig_paced.
  - exists s, es. split; [exact A1|]. split; [exact A2|].
    pose proof (C52_results_stay_near 1 _ s W_params es (zigzag n) middle (1/2) A1 A3 ltac:(unfold in_stroke; rewrite A4; reflexivity) W_damped (fun _ => zigzag_sorted n) ltac:(lra) (zigzag_near n)) as H.
    revert H. apply Forall_impl. intros e. apply Forall_impl. intros r H. lra.
Qed.
(** The next input and the prediction of such a stroke. *)
Example C52_example_next : forall n, (Z.of_nat n < 1000000)%Z ->
  exists out, answers 1 (drawing W_params (zigzag n)) [CUpdate (zig EUp (S n)) []] = Ret [RResults OkStatus out] /\
    out <> [] /\ Forall (fun r => dist (r_pos r) middle <= 7/4) out.
Proof.
  intros n N. assert (O : (1 : R) <= 2 * PI) by (pose proof PI2_3_2; lra).
  destruct (C52_example n N) as (s & es & A1 & A2 & _).
  destruct (C51_whole_stroke_accepted 1 W_params (zig EDown 0) (map (zig EMove) (seq 1 n)) (le_n 1) W_valid ltac:(reflexivity) ltac:(left; reflexivity) eq_refl) as (s' & es' & B1 & B2 & B3 & B4).
  - apply Forall_map, Forall_forall. reflexivity.
  - constructor; [exact O|]. apply Forall_map, Forall_forall. intros k _. exact O.
  - cbn [List.length]. rewrite map_length, seq_length. unfold INT_MAX. lia.
  - apply zig_paced.
  - clear s es A1 A2. fold (zigzag n) in B1.
    assert (L : last (map (zig EMove) (seq 1 n)) (zig EDown 0) = zig (match n with O => EDown | _ => EMove end) n).
    { destruct n as [|n]; [reflexivity|]. rewrite seq_S, map_app. cbn [map]. rewrite last_last. reflexivity. }
    rewrite L in B4. set (e0 := match n with O => EDown | _ => EMove end) in *. clearbody e0.
    assert (T1 : i_time (zig EUp (S n)) = (INR n + 1) / 100) by (unfold zig; cbn [i_time]; rewrite S_INR; reflexivity).
    assert (T0 : i_time (zig e0 n) = INR n / 100) by reflexivity.
    assert (AF : after 1 (drawing W_params (zigzag n)) s') by (destruct B1 as (ma & rsa & Ra & Pa & _); exists ma, rsa; auto).
    destruct (C51_next_input_accepted 1 (drawing W_params (zigzag n)) s' W_params (zig e0 n) (zig EUp (S n)) [] (le_n 1)) as (out & AN).
    + replace (drawing W_params (zigzag n) ++ [CUpdate (zig EUp (S n)) []]) with (drawing W_params (zigzag n ++ [zig EUp (S n)])) by (unfold drawing; rewrite map_app; reflexivity).
      apply tame_drawing; [reflexivity| |].
      * apply Forall_app. split; [|constructor; [exact O|constructor]]. constructor; [exact O|]. apply Forall_map, Forall_forall. intros k _. exact O.
      * rewrite app_length. cbn [zigzag List.length]. rewrite map_length, seq_length. unfold INT_MAX. lia.
    + exact AF.
    + exact B3.
    + exact B4.
    + right. reflexivity.
    + intros E. apply (f_equal i_time) in E. rewrite T1, T0 in E. apply Rmult_eq_reg_r in E; lra.
    + rewrite T1, T0. lra.
    + rewrite T1, T0. cbn [W_params p_sampling W_sampling sp_rate sp_max_outputs]. lra.
    + left. reflexivity.
    + exists out. split; [exact AN|]. split.
      * destruct (C06_up_at_least_one 1 _ _ _ _ AN eq_refl) as (r & o & E). cbn [app] in E. intros ->. discriminate E.
      * assert (H : Forall (fun o => dist (r_pos o) middle <= 7 / 2 * (1/2)) out).
        { apply (C52_update_stays_near 1 _ s' W_params es' (zigzag n) middle (1/2) (zig EUp (S n)) [] out B1 B3 W_damped); [|apply zig_near|exact AN].
          intros _. split; [|apply zigzag_near]. intros _. pose proof (zigzag_sorted (S n)) as Z. unfold zigzag in *. rewrite seq_S, map_app in Z. cbn [app map] in *. rewrite map_app in *. exact Z. }
        revert H. apply Forall_impl. intros r H. lra.
Qed.

(** C51, C46: the same stroke followed by an input that is a minute late; the calls
    all return, the late input is rejected. *)
Definition late (n : nat) : Input := mkInput EMove middle (INR n / 100 + 60 : R) (1/2 : R) (1/2 : R) (1 : R).
Example C51_example : forall n, (Z.of_nat n < 1000000)%Z ->
  tame (drawing W_params (zigzag n ++ [late n])) /\
  exists st, answers 1 (drawing W_params (zigzag n)) [CUpdate (late n) []] = Ret [RResults st []] /\ is_error st.
Proof.
  intros n N. assert (O : (1 : R) <= 2 * PI) by (pose proof PI2_3_2; lra).
  assert (T : tame (drawing W_params (zigzag n ++ [late n]))).
  { apply tame_drawing; [reflexivity| |].
    - apply Forall_app. split; [|constructor; [exact O|constructor]]. constructor; [exact O|]. apply Forall_map, Forall_forall. intros k _. exact O.
    - rewrite app_length. cbn [zigzag List.length]. rewrite map_length, seq_length. unfold INT_MAX. lia. }
  split; [exact T|].
  destruct (C51_whole_stroke_accepted 1 W_params (zig EDown 0) (map (zig EMove) (seq 1 n)) (le_n 1) W_valid ltac:(reflexivity) ltac:(left; reflexivity) eq_refl) as (s & es & B1 & B2 & B3 & B4).
  - apply Forall_map, Forall_forall. reflexivity.
  - constructor; [exact O|]. apply Forall_map, Forall_forall. intros k _. exact O.
  - cbn [List.length]. rewrite map_length, seq_length. unfold INT_MAX. lia.
  - apply zig_paced.
  - fold (zigzag n) in B1.
    assert (L : last (map (zig EMove) (seq 1 n)) (zig EDown 0) = zig (match n with O => EDown | _ => EMove end) n).
    { destruct n as [|k]; [reflexivity|]. rewrite seq_S, map_app. cbn [map]. rewrite last_last. reflexivity. }
    rewrite L in B4. set (e0 := match n with O => EDown | _ => EMove end) in *. clearbody e0.
    assert (AF : after 1 (drawing W_params (zigzag n)) s) by (destruct B1 as (ma & rsa & Ra & Pa & _); exists ma, rsa; auto).
    assert (E : drawing W_params (zigzag n ++ [late n]) = drawing W_params (zigzag n) ++ [CUpdate (late n) []]) by (unfold drawing; rewrite map_app; reflexivity).
    rewrite E in T. destruct (tame_call _ _ _ _ (le_n 1) T AF) as (m & r0 & m' & r & _ & _ & _ & _ & S & AN).
    cbn [step] in S. destruct (update 1 m (late n) []) as [[[m1 st] rs1]| |]; cbn [obind] in S; try discriminate S. injection S as _ <-.
    exists st. assert (FAR : is_error st /\ rs1 = []).
    { apply (C51_too_far_rejected 1 _ s W_params (zig e0 n) (late n) [] st rs1 AF B3 B4); [left; reflexivity|reflexivity| |exact AN].
      assert (T0 : i_time (zig e0 n) = INR n / 100) by reflexivity. assert (T1 : i_time (late n) = INR n / 100 + 60) by reflexivity.
      rewrite T0, T1. cbn [W_params p_sampling W_sampling sp_rate sp_max_outputs]. lra. }
    destruct FAR as [F1 ->]. split; [exact AN|exact F1].
Qed.
