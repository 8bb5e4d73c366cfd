(** * Facts about the model over exact real numbers *)
From Coq Require Import ZArith Bool List Reals Lra Lia Psatz.
From Flocq Require Import Core.Raux.
From Verif Require Export RealA Stroke Props_Stylus Props_Count Made.
Import ListNotations.
Open Scope R_scope.

#[export] Existing Instance real_arith.

(** Unfold the operations of [real_arith]. *)
Ltac rsimp :=
  unfold f0, f1, f2, fm1, d0, d1 in *;
  cbn [F D fadd fsub fmul fdiv fneg fabs feqb fltb fleb fisnan fisinf fofZ fceil ftoint fhypot facos
       fltinf fleinf fmaxval dadd dsub dmul ddiv dneg deqb dltb dleb disnan disinf dofZ dceil dtoint
       f2d d2f kPi real_arith vx vy] in *.

Ltac rring := match goal with |- @eq _ ?a ?b => change (@eq R a b) end; ring.

Lemma Rltb_true : forall x y, Rltb x y = true <-> x < y.
Proof. intros x y. unfold Rltb. destruct (Rlt_bool_spec x y); split; intros; try lra; try discriminate; reflexivity. Qed.
Lemma Rltb_false : forall x y, Rltb x y = false <-> y <= x.
Proof. intros x y. unfold Rltb. destruct (Rlt_bool_spec x y); split; intros; try lra; try discriminate; reflexivity. Qed.
Lemma Rleb_true : forall x y, Rleb x y = true <-> x <= y.
Proof. intros x y. unfold Rleb. destruct (Rle_bool_spec x y); split; intros; try lra; try discriminate; reflexivity. Qed.
Lemma Rleb_false : forall x y, Rleb x y = false <-> y < x.
Proof. intros x y. unfold Rleb. destruct (Rle_bool_spec x y); split; intros; try lra; try discriminate; reflexivity. Qed.
Lemma Reqb_true : forall x y, Reqb x y = true <-> x = y.
Proof. intros x y. unfold Reqb. destruct (Req_bool_spec x y); split; intros; try lra; try discriminate; reflexivity. Qed.
Lemma Reqb_false : forall x y, Reqb x y = false <-> x <> y.
Proof. intros x y. unfold Reqb. destruct (Req_bool_spec x y); split; intros; try lra; try discriminate; reflexivity. Qed.

(** Case analysis on a real comparison. *)
Ltac rcase x y H := destruct (Rlt_bool_spec x y) as [H|H].

Lemma vec_eq : forall (a b : Vec2), vx a = vx b -> vy a = vy b -> a = b.
Proof. intros [ax ay] [bx by_] H1 H2. cbn in *. congruence. Qed.

(** ** Clamping and interpolation *)
Lemma clamp01_range : forall x : R, 0 <= clamp01 (A := real_arith) x <= 1.
Proof.
  intros x. unfold clamp01, std_clamp. rsimp.
  destruct (Rltb x 0) eqn:E1; [lra|]. apply Rltb_false in E1.
  destruct (Rltb 1 x) eqn:E2; [lra|]. apply Rltb_false in E2. lra.
Qed.
Lemma clamp01_id : forall x : R, 0 <= x <= 1 -> clamp01 (A := real_arith) x = x.
Proof.
  intros x H. unfold clamp01, std_clamp. rsimp.
  destruct (Rltb x 0) eqn:E1; [apply Rltb_true in E1; lra|].
  destruct (Rltb 1 x) eqn:E2; [apply Rltb_true in E2; lra|]. reflexivity.
Qed.

Definition vlerp (a b : Vec2) (r : R) : Vec2 :=
  mkVec2 (vx a + (vx b - vx a) * r) (vy a + (vy b - vy a) * r).
Lemma interp_v_R : forall a b r, 0 <= r <= 1 -> interp_v a b r = vlerp a b r.
Proof.
  intros a b r H. unfold interp_v, vlerp. rewrite clamp01_id by exact H.
  apply vec_eq; unfold vadd, vscale, vsub; rsimp; ring.
Qed.
Lemma interp_v_1 : forall a b, interp_v a b 1 = b.
Proof. intros a b. rewrite interp_v_R by lra. apply vec_eq; cbn; ring. Qed.
Lemma interp_v_same : forall a r, interp_v a a r = a.
Proof. intros a r. unfold interp_v. apply vec_eq; unfold vadd, vscale, vsub; rsimp; ring. Qed.
Lemma interp_t_R : forall a b r : R, 0 <= r <= 1 -> interp_t (A := real_arith) a b r = a + (b - a) * r.
Proof. intros a b r H. unfold interp_t. rewrite clamp01_id by exact H. reflexivity. Qed.
Lemma interp_t_same : forall a r : R, interp_t (A := real_arith) a a r = a.
Proof. intros a r. unfold interp_t. rsimp. ring. Qed.
Lemma interp_f_R : forall a b r : R, 0 <= r <= 1 -> interp_f (A := real_arith) a b r = a + (b - a) * r.
Proof. intros a b r H. unfold interp_f. rewrite clamp01_id by exact H. reflexivity. Qed.
Lemma interp_f_between : forall a b r : R, a <= b -> a <= interp_f (A := real_arith) a b r <= b.
Proof.
  intros a b r H. unfold interp_f. pose proof (clamp01_range r). rsimp. nra.
Qed.
Lemma interp_f_between' : forall a b r : R, b <= a -> b <= interp_f (A := real_arith) a b r <= a.
Proof.
  intros a b r H. unfold interp_f. pose proof (clamp01_range r). rsimp. nra.
Qed.

(** ** Valid parameters *)
Lemma gt0_f_R : forall (v : R) l, validate_gt0_f (A := real_arith) v l = OkStatus -> 0 < v.
Proof.
  intros v l H. unfold validate_gt0_f, validate_finite_f in H. rsimp. cbn [and_then] in H.
  destruct (Rleb v 0) eqn:E; [discriminate H|]. apply Rleb_false in E. exact E.
Qed.
Lemma gt0_d_R : forall (v : R) l, validate_gt0_d (A := real_arith) v l = OkStatus -> 0 < v.
Proof.
  intros v l H. unfold validate_gt0_d, validate_finite_d in H. rsimp. cbn [and_then] in H.
  destruct (Rleb v 0) eqn:E; [discriminate H|]. apply Rleb_false in E. exact E.
Qed.
Lemma ge0_f_R : forall (v : R) l, validate_ge0_f (A := real_arith) v l = OkStatus -> 0 <= v.
Proof.
  intros v l H. unfold validate_ge0_f, validate_finite_f in H. rsimp. cbn [and_then] in H.
  destruct (Rltb v 0) eqn:E; [discriminate H|]. apply Rltb_false in E. exact E.
Qed.
Lemma ge0_d_R : forall (v : R) l, validate_ge0_d (A := real_arith) v l = OkStatus -> 0 <= v.
Proof.
  intros v l H. unfold validate_ge0_d, validate_finite_d in H. rsimp. cbn [and_then] in H.
  destruct (Rltb v 0) eqn:E; [discriminate H|]. apply Rltb_false in E. exact E.
Qed.

Lemma valid_R : forall p : StrokeModelParams, validate_params p = OkStatus ->
  0 < pp_spring (p_position p) /\ 0 < pp_drag (p_position p) /\
  0 < sp_rate (p_sampling p) /\ 0 < sp_stop (p_sampling p).
Proof.
  intros p V. destruct (validate_params_parts p V) as (_ & VP & VS & _).
  unfold validate_position in VP. apply and_then_ok in VP. destruct VP as [_ VP].
  apply and_then_ok in VP. destruct VP as [V1 V2].
  unfold validate_sampling in VS. apply and_then_ok in VS. destruct VS as [V3 VS].
  apply and_then_ok in VS. destruct VS as [V4 _].
  repeat split; eauto using gt0_f_R, gt0_d_R.
Qed.

(** ** Number of steps *)
Lemma to_int_R : forall x z, R_to_int x = Some z -> z = Ztrunc x /\ (INT_MIN <= z <= INT_MAX)%Z.
Proof.
  intros x z H. unfold R_to_int in H.
  destruct (Z.leb INT_MIN (Ztrunc x) && Z.leb (Ztrunc x) INT_MAX) eqn:E; [|discriminate H].
  inversion H; subst. apply andb_prop in E. destruct E as [E1 E2].
  apply Z.leb_le in E1, E2. auto.
Qed.

Lemma min_ceil : forall x z,
  R_to_int (std_dmin (A := real_arith) (IZR (Zceil x)) (IZR INT_MAX)) = Some z ->
  z = Z.min (Zceil x) INT_MAX.
Proof.
  intros x z H. apply to_int_R in H. destruct H as [H _]. unfold std_dmin in H. rsimp.
  destruct (Rltb (IZR INT_MAX) (IZR (Zceil x))) eqn:E; rewrite Ztrunc_IZR in H; subst z.
  - apply Rltb_true, lt_IZR in E. lia.
  - apply Rltb_false, le_IZR in E. lia.
Qed.

(** The angle that drives angle-based upsampling. *)
Definition turn_angle (tip : TipState) (i0 i : Input) (pp : PositionParams) : option R :=
  absolute_angle_to (t_vel tip)
    (vadd (t_vel tip) (vscale (i_time i - i_time i0) (vdiv (vsub (i_pos i) (t_pos tip)) (pp_spring pp)))).

Lemma steps_R : forall tip i0 i sp pp n,
  number_of_steps tip i0 i sp pp = Ret (IOk n) ->
  (Z.min (Zceil ((i_time i - i_time i0) * sp_rate sp)) INT_MAX <= n)%Z /\
  (n <= sp_max_outputs sp)%Z /\
  exists a, turn_angle tip i0 i pp = Some a /\
    (if Rltb 0 (sp_max_angle sp) then
       n = Z.max (Z.min (Zceil ((i_time i - i_time i0) * sp_rate sp)) INT_MAX)
                 (Z.min (Zceil (a / sp_max_angle sp)) INT_MAX)
     else n = Z.min (Zceil ((i_time i - i_time i0) * sp_rate sp)) INT_MAX).
Proof.
  intros tip i0 i sp pp n H. pose proof (number_of_steps_le _ _ _ _ _ _ H) as LE.
  unfold number_of_steps in H. unfold to_int in H at 1. rsimp.
  destruct (R_to_int _) as [z|] eqn:E in H; [|discriminate H]. apply min_ceil in E.
  fold (turn_angle tip i0 i pp) in H. destruct (turn_angle tip i0 i pp) as [a|] eqn:TA; [|discriminate H].
  destruct (Rltb 0 (sp_max_angle sp)) eqn:MA.
  - unfold to_int in H. destruct (R_to_int _) as [z2|] eqn:E2 in H; [|discriminate H]. apply min_ceil in E2.
    assert (N1 : n = if (z <? z2)%Z then z2 else z)
      by (destruct (sp_max_outputs sp <? (if (z <? z2)%Z then z2 else z))%Z; inversion H; reflexivity).
    assert (N2 : n = Z.max z z2) by (rewrite N1; destruct (Z.ltb_spec z z2); lia).
    split; [lia|]. split; [exact LE|]. exists a. split; [reflexivity|]. rewrite N2, E, E2. reflexivity.
  - assert (N1 : n = z) by (destruct (sp_max_outputs sp <? z)%Z; inversion H; reflexivity).
    split; [lia|]. split; [exact LE|]. exists a. split; [reflexivity|]. rewrite N1, E. reflexivity.
Qed.

(** ** The upsampled path *)
Fixpoint scan (p : PositionParams) (s : TipState) (l : list (Vec2 * R)) : list TipState :=
  match l with
  | [] => []
  | (a, t) :: l' => let s' := tip_update p s a t in s' :: scan p s' l'
  end.

(** Anchor and time of the (j+1)-th of n steps from [a] at [ta] to [b] at [tb]. *)
Definition waypoint (a : Vec2) (ta : R) (b : Vec2) (tb : R) (n : Z) (j : nat) : Vec2 * R :=
  (vlerp a b (INR (S j) / IZR n), ta + (tb - ta) * (INR (S j) / IZR n)).

Lemma last_cons : forall {X} (l : list X) x y, last (x :: l) y = last l x.
Proof. intros X l. induction l as [|a l IH]; intros x y; [reflexivity|]. change (last (x :: a :: l) y) with (last (a :: l) y). rewrite !IH. reflexivity. Qed.

Lemma path_loop_R : forall k p s a ta b tb n j,
  (Z.of_nat (j + k) <= n)%Z ->
  path_loop p s a ta b tb n (Z.of_nat (S j)) k =
    (last (scan p s (map (waypoint a ta b tb n) (seq j k))) s,
     scan p s (map (waypoint a ta b tb n) (seq j k))).
Proof.
  induction k as [|k IH]; intros p s a ta b tb n j H; [reflexivity|]. cbn [path_loop seq map scan].
  assert (R01 : 0 <= INR (S j) / IZR n <= 1).
  { assert (0 < IZR n) by (apply IZR_lt; lia). pose proof (pos_INR (S j)).
    assert (INR (S j) <= IZR n) by (rewrite INR_IZR_INZ; apply IZR_le; lia).
    split; [apply Rle_mult_inv_pos; assumption|]. apply Rmult_le_reg_r with (IZR n); [assumption|].
    unfold Rdiv. rewrite Rmult_assoc, Rinv_l by lra. lra. }
  assert (E : fdiv (fofZ (Z.of_nat (S j))) (fofZ n) = INR (S j) / IZR n).
  { rsimp. rewrite <- INR_IZR_INZ. reflexivity. }
  rewrite E. rewrite interp_v_R, interp_t_R by exact R01.
  replace (Z.of_nat (S j) + 1)%Z with (Z.of_nat (S (S j))) by lia.
  rewrite IH by lia. cbn [scan]. unfold waypoint at 3. rewrite last_cons. reflexivity.
Qed.

Lemma path_R : forall p s a ta b tb n sf out, (0 <= n)%Z ->
  update_along_path p s a ta b tb n = Ret (sf, out) ->
  (n < INT_MAX)%Z /\ sf = last out s /\
  out = scan p s (map (waypoint a ta b tb n) (seq 0 (Z.to_nat n))).
Proof.
  intros p s a ta b tb n sf out N H. unfold update_along_path in H.
  destruct (Z.leb_spec INT_MAX n); [discriminate H|]. split; [assumption|].
  change 1%Z with (Z.of_nat 1) in H. rewrite path_loop_R in H by lia. inversion H; subst. auto.
Qed.

Lemma scan_length : forall p l s, List.length (scan p s l) = List.length l.
Proof. induction l as [|[a t] l IH]; intros s; cbn; [reflexivity|]. rewrite IH. reflexivity. Qed.
Lemma scan_time : forall p l s, map t_time (scan p s l) = map snd l.
Proof. induction l as [|[a t] l IH]; intros s; cbn; [reflexivity|]. rewrite IH. reflexivity. Qed.
Lemma scan_app : forall p l1 l2 s, scan p s (l1 ++ l2) = scan p s l1 ++ scan p (last (scan p s l1) s) l2.
Proof.
  induction l1 as [|[a t] l1 IH]; intros l2 s; [reflexivity|].
  change (scan p s (((a, t) :: l1) ++ l2)) with (tip_update p s a t :: scan p (tip_update p s a t) (l1 ++ l2)).
  rewrite IH. cbn [scan]. rewrite last_cons. reflexivity.
Qed.
(** Element j of a scan is one step after element j-1 (or the start). *)
Lemma scan_nth : forall p l s j x, nth_error (scan p s l) j = Some x ->
  exists a t y, nth_error l j = Some (a, t) /\ nth_error (s :: scan p s l) j = Some y /\ x = tip_update p y a t.
Proof.
  induction l as [|[a t] l IH]; intros s j x H; [destruct j; discriminate H|].
  destruct j as [|j]; cbn in H.
  - inversion H; subst. exists a, t, s. auto.
  - destruct (IH _ _ _ H) as (a' & t' & y & H1 & H2 & H3). exists a', t', y. split; [exact H1|]. split; [|exact H3].
    cbn. exact H2.
Qed.

(** ** Results and tips *)
Definition tip_of (r : Result) : TipState := mkTip (r_pos r) (r_vel r) (r_acc r) (r_time r).

Lemma stylus_query_time : forall fuel sm tip n r, stylus_query fuel sm tip n = Ret r ->
  s_raw (sm_state sm) <> [] -> r_time r = t_time tip.
Proof.
  intros fuel sm tip n r H NE. destruct (query_eq fuel sm tip n) as [[E _]|(_ & o & Q & _)]; [congruence|].
  rewrite Q in H. bind_inv H. apply ret_inj in H. subst r. reflexivity.
Qed.

Lemma loop_update_off : forall lm v t lm' x, lp_enabled (l_params lm) = false ->
  loop_update lm v t = (lm', x) -> lm' = lm /\ x = f1.
Proof. intros lm v t lm' x E H. unfold loop_update in H. rewrite E in H. inversion H; auto. Qed.

Lemma interp_result_geom : forall fuel a b x r, interp_result fuel a b x = Ret r ->
  tip_of r = mkTip (interp_v (r_pos a) (r_pos b) x) (interp_v (r_vel a) (r_vel b) x)
    (interp_v (r_acc a) (r_acc b) x) (interp_t (r_time a) (r_time b) x).
Proof. intros fuel a b x r H. unfold interp_result in H. bind_inv H. apply ret_inj in H. subst r. reflexivity. Qed.

Lemma result_off : forall fuel pj tip r, interp_result fuel pj (make_result tip pj) f1 = Ret r -> tip_of r = tip.
Proof.
  intros fuel pj tip r H. rewrite (interp_result_geom _ _ _ _ _ H). cbn [make_result r_pos r_vel r_acc r_time].
  rewrite !interp_v_1, interp_t_R by (rsimp; lra). destruct tip as [tp tv ta tt]. cbn [t_pos t_vel t_acc t_time]. f_equal. rsimp. ring.
Qed.

Lemma model_stylus_loop_off : forall fuel tips sm lm pt lm' out, lp_enabled (l_params lm) = false ->
  model_stylus_loop fuel tips sm lm f1 pt = Ret (lm', out) -> map tip_of out = tips /\ lm' = lm.
Proof.
  intros fuel. induction tips as [|tip rest IH]; intros sm lm pt lm' out E H; cbn [model_stylus_loop] in H.
  - inversion H; subst. auto.
  - bind_inv H. rename E0 into Q. bind_inv H. rename E0 into IR.
    destruct (loop_update lm (r_vel x0) (t_time tip)) as [l1 v1] eqn:LU.
    destruct (loop_update_off _ _ _ _ _ E LU) as [-> ->].
    bind_inv H. destruct x1 as [l2 o2]. inversion H; subst. cbn [map].
    destruct (IH _ _ _ _ _ E E0) as [E1 E2]. rewrite E1, (result_off _ _ _ _ IR). auto.
Qed.
Lemma model_stylus_off : forall fuel tips sm lm pt lm' out, lp_enabled (l_params lm) = false ->
  model_stylus fuel tips sm lm pt = Ret (lm', out) -> map tip_of out = tips /\ lm' = lm.
Proof.
  intros fuel tips sm lm pt lm' out E H. unfold model_stylus, loop_get in H. rewrite loop_value_off in H by exact E.
  eapply model_stylus_loop_off; eassumption.
Qed.

Lemma model_stylus_loop_times : forall fuel tips sm lm v pt lm' out, s_raw (sm_state sm) <> [] ->
  model_stylus_loop fuel tips sm lm v pt = Ret (lm', out) -> map r_time out = map t_time tips.
Proof.
  intros fuel. induction tips as [|tip rest IH]; intros sm lm v pt lm' out NE H; cbn [model_stylus_loop] in H.
  - inversion H; subst. auto.
  - bind_inv H. bind_inv H. destruct (loop_update lm (r_vel x0) (t_time tip)) as [l1 v1] eqn:LU.
    bind_inv H. destruct x1 as [l2 o2]. inversion H; subst. cbn [map]. f_equal; [|eapply IH; eassumption].
    apply interp_result_geom in E0. apply (f_equal t_time) in E0. cbn [tip_of t_time make_result r_time] in E0.
    rewrite (stylus_query_time _ _ _ _ _ E NE), interp_t_same in E0. exact E0.
Qed.

(** With mitigation on, normal projection is on, and then the stylus component
    always has an input after an update. *)
Lemma stylus_trim_nonempty : forall p raw out, validate_stylus p = OkStatus -> raw <> [] ->
  stylus_trim p raw = Ret out -> out <> [].
Proof.
  intros p raw out V. induction raw as [|a raw IH]; intros NE H; [congruence|].
  cbn [stylus_trim] in H. bind_inv H. destruct x; [|inversion H; discriminate].
  destruct raw as [|b raw]; [|apply IH; [discriminate|exact H]]. exfalso.
  unfold should_drop, size_gt in E. unfold validate_stylus in V. destruct (sy_normal p).
  - apply and_then_ok in V. destruct V as [V _]. unfold validate_gt0_i in V.
    destruct (Z.leb_spec (sy_min_samples p) 0); [discriminate V|].
    destruct (Z.ltb_spec (sy_min_samples p) 0); [lia|]. cbn [List.length] in E.
    destruct (Z.ltb_spec (sy_min_samples p) (Z.of_nat 1)); [lia|]. discriminate E.
  - unfold validate_gt0_i in V.
    destruct (Z.leb_spec (sy_max_samples p) 0); [discriminate V|].
    destruct (Z.ltb_spec (sy_max_samples p) 0); [lia|]. cbn [List.length] in E.
    destruct (Z.ltb_spec (sy_max_samples p) (Z.of_nat 1)); [lia|]. discriminate E.
Qed.
Lemma stylus_update_nonempty : forall sm pos t pr ti o sm', validate_stylus (sm_params sm) = OkStatus ->
  sy_normal (sm_params sm) = true -> stylus_update sm pos t pr ti o = Ret sm' -> s_raw (sm_state sm') <> [].
Proof.
  intros sm pos t pr ti o sm' V N H. unfold stylus_update in H. rewrite N in H. cbn [negb andb] in H.
  destruct (match back (s_raw (sm_state sm)) with Some _ => _ | None => _ end) as [v a].
  bind_inv H. inversion H; subst. cbn. eapply stylus_trim_nonempty; [exact V| |exact E].
  intros K. apply app_eq_nil in K. destruct K; discriminate.
Qed.
Lemma mitigation_normal : forall p : StrokeModelParams, validate_params p = OkStatus ->
  lp_enabled (pp_loop (p_position p)) = true -> sy_normal (p_stylus p) = true.
Proof.
  intros p V E. unfold validate_params in V. rewrite E in V. destruct (sy_normal (p_stylus p)); [reflexivity|discriminate V].
Qed.

Lemma model_stylus_times : forall fuel tips sm lm pt lm' out,
  (lp_enabled (l_params lm) = true -> s_raw (sm_state sm) <> []) ->
  model_stylus fuel tips sm lm pt = Ret (lm', out) -> map r_time out = map t_time tips.
Proof.
  intros fuel tips sm lm pt lm' out NE H. destruct (lp_enabled (l_params lm)) eqn:E.
  - eapply model_stylus_loop_times; [apply NE; reflexivity|exact H].
  - destruct (model_stylus_off _ _ _ _ _ _ _ E H) as [K _]. rewrite <- K, map_map. reflexivity.
Qed.
