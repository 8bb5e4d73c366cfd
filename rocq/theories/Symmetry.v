(** * C44: moving, turning, mirroring and scaling a drawing, and its time (exact arithmetic). *)
From Coq Require Import ZArith Bool List Reals Lra Lia Psatz.
From Flocq Require Import Core.Raux.
From Verif Require Export Calm.
Import ListNotations.
Open Scope R_scope.

(** ** Specification *)
(** A similarity of the plane (turn the y axis around if [g_mirror] is set, turn by the
    angle with the given cosine and sine, scale, shift) together with a change of
    unit and origin of time. *)
Record motion : Type := mkMotion {
  g_mirror : bool;
  g_scale : R; g_cos : R; g_sin : R; g_dx : R; g_dy : R;
  g_unit : R; g_origin : R
}.
Definition g_flip (g : motion) : R := if g_mirror g then -1 else 1.
Definition similarity (g : motion) : Prop :=
  0 < g_scale g /\ 0 < g_unit g /\ g_cos g * g_cos g + g_sin g * g_sin g = 1.

Section Moved.
Variable g : motion.
Notation s := (g_scale g).
Notation k := (g_unit g).
Notation V := (Vec2 (A := real_arith)).

(** A vector, mirrored, turned and multiplied by [l]. *)
Definition turned (l : R) (v : V) : V :=
  mkVec2 (A := real_arith) (l * (g_cos g * vx v - g_sin g * (g_flip g * vy v))) (l * (g_sin g * vx v + g_cos g * (g_flip g * vy v))).
(** Positions, velocities, accelerations and times in the new coordinates. *)
Definition moved_pos (v : V) : V :=
  mkVec2 (A := real_arith) (vx (turned s v) + g_dx g) (vy (turned s v) + g_dy g).
Definition moved_vel : V -> V := turned (s / k).
Definition moved_acc : V -> V := turned (s / (k * k)).
Definition moved_time (t : R) : R := k * t + g_origin g.

(** Pressure, tilt and orientation are not changed. *)
Definition moved_input (i : Input (A := real_arith)) : Input (A := real_arith) :=
  mkInput (A := real_arith) (i_event i) (moved_pos (i_pos i)) (moved_time (i_time i)) (i_pressure i) (i_tilt i) (i_orient i).
Definition moved_result (r : Result (A := real_arith)) : Result (A := real_arith) :=
  mkResult (A := real_arith) (moved_pos (r_pos r)) (moved_vel (r_vel r)) (moved_acc (r_acc r)) (moved_time (r_time r))
    (r_pressure r) (r_tilt r) (r_orient r).

(** The parameters, converted to the new units.  The variances of the Kalman
    filter are left as they are. *)
Definition moved_loop (p : LoopParams (A := real_arith)) : LoopParams :=
  mkLoopParams (A := real_arith) (lp_enabled p) (s / k * lp_speed_lower p) (s / k * lp_speed_upper p)
    (lp_strength_lower p) (lp_strength_upper p) (k * lp_window p) (lp_min_samples p).
Definition moved_position (p : PositionParams (A := real_arith)) : PositionParams :=
  mkPositionParams (A := real_arith) (k * k * pp_spring p) (pp_drag p / k) (moved_loop (pp_loop p)).
Definition moved_sampling (p : SamplingParams (A := real_arith)) : SamplingParams :=
  mkSamplingParams (A := real_arith) (sp_rate p / k) (s * sp_stop p) (sp_max_iter p) (sp_max_outputs p) (sp_max_angle p).
Definition moved_stylus (p : StylusParams (A := real_arith)) : StylusParams :=
  mkStylusParams (A := real_arith) (sy_max_samples p) (sy_normal p) (sy_min_samples p) (k * sy_min_duration p).
Definition moved_wobble (p : WobbleParams (A := real_arith)) : WobbleParams :=
  mkWobbleParams (A := real_arith) (wp_enabled p) (k * wp_timeout p) (s / k * wp_floor p) (s / k * wp_ceiling p).
Definition moved_confidence (p : ConfidenceParams (A := real_arith)) : ConfidenceParams :=
  mkConfidenceParams (A := real_arith) (cp_samples p) (s * cp_max_dist p) (s / k * cp_min_speed p) (s / k * cp_max_speed p)
    (s * cp_max_dev p) (cp_baseline p).
Definition moved_kalman (p : KalmanParams (A := real_arith)) : KalmanParams :=
  mkKalmanParams (A := real_arith) (kp_process p) (kp_measure p) (kp_min_stable p) (kp_max_times p) (s / k * kp_catchup p)
    (kp_acc_weight p) (kp_jerk_weight p) (k * kp_interval p) (moved_confidence (kp_conf p)).
Definition moved_prediction (p : PredictionParams (A := real_arith)) : PredictionParams (A := real_arith) :=
  match p with PredKalman kp => PredKalman (moved_kalman kp) | PredStrokeEnd => PredStrokeEnd | PredDisabled => PredDisabled end.
Definition moved_params (p : StrokeModelParams (A := real_arith)) : StrokeModelParams (A := real_arith) :=
  mkParams (A := real_arith) (moved_wobble (p_wobble p)) (moved_position (p_position p)) (moved_sampling (p_sampling p))
    (moved_stylus (p_stylus p)) (moved_prediction (p_prediction p)).

(** Calls and replies in the new coordinates. *)
Definition moved_call (c : call (A := real_arith)) : call (A := real_arith) :=
  match c with
  | CReset p => CReset (moved_params p)
  | CUpdate i rs => CUpdate (moved_input i) (map moved_result rs)
  | CPredict rs => CPredict (map moved_result rs)
  | CResetKeep => CResetKeep
  | CSave => CSave
  | CRestore => CRestore
  end.
Definition moved_reply (r : reply (A := real_arith)) : reply (A := real_arith) :=
  match r with
  | RResults st rs => RResults st (map moved_result rs)
  | RStatus st => RStatus st
  | RVoid => RVoid
  end.

(** The two absolute constants in the code: the window of the mitigation must not
    exceed 10000 s, in the old and in the new unit; and a Kalman prediction caps
    a distance at the largest float, so that there distances must not be scaled.
    A mirror image turns left into right, between which the projection along the
    normal distinguishes, so it must not be in use. *)
Definition movable (c : call (A := real_arith)) : Prop :=
  match c with
  | CReset p =>
      (lp_enabled (pp_loop (p_position p)) = true ->
       lp_window (pp_loop (p_position p)) <= 10000 /\ k * lp_window (pp_loop (p_position p)) <= 10000) /\
      (forall kp, p_prediction p = PredKalman kp -> s = 1) /\
      (g_mirror g = true -> sy_normal (p_stylus p) = false)
  | _ => True
  end.
End Moved.

Definition omap {X Y} (f : X -> Y) (o : outcome X) : outcome Y := let* x := o in Ret (f x).

(** ** Proof: scaling of comparisons *)
Lemma Rltb_scale : forall l x y, 0 < l -> Rltb (l * x) (l * y) = Rltb x y.
Proof.
  intros l x y P. destruct (Rltb x y) eqn:E.
  - apply Rltb_true in E. apply Rltb_true. apply Rmult_lt_compat_l; assumption.
  - apply Rltb_false in E. apply Rltb_false. apply Rmult_le_compat_l; [lra|assumption].
Qed.
Lemma Rleb_scale : forall l x y, 0 < l -> Rleb (l * x) (l * y) = Rleb x y.
Proof.
  intros l x y P. destruct (Rleb x y) eqn:E.
  - apply Rleb_true in E. apply Rleb_true. apply Rmult_le_compat_l; [lra|assumption].
  - apply Rleb_false in E. apply Rleb_false. apply Rmult_lt_compat_l; assumption.
Qed.
Lemma Reqb_scale : forall l x y, 0 < l -> Reqb (l * x) (l * y) = Reqb x y.
Proof.
  intros l x y P. destruct (Reqb x y) eqn:E.
  - apply Reqb_true in E. apply Reqb_true. subst. reflexivity.
  - apply Reqb_false in E. apply Reqb_false. intros Q. apply E. apply Rmult_eq_reg_l with l; [exact Q|lra].
Qed.
Lemma Rltb_scale0 : forall l y, 0 < l -> Rltb 0 (l * y) = Rltb 0 y.
Proof. intros l y P. rewrite <- (Rltb_scale l 0 y P), Rmult_0_r. reflexivity. Qed.
Lemma Rltb_0scale : forall l y, 0 < l -> Rltb (l * y) 0 = Rltb y 0.
Proof. intros l y P. rewrite <- (Rltb_scale l y 0 P), Rmult_0_r. reflexivity. Qed.
Lemma Rleb_0scale : forall l y, 0 < l -> Rleb (l * y) 0 = Rleb y 0.
Proof. intros l y P. rewrite <- (Rleb_scale l y 0 P), Rmult_0_r. reflexivity. Qed.
Lemma Reqb_0scale : forall l y, 0 < l -> Reqb (l * y) 0 = Reqb y 0.
Proof. intros l y P. rewrite <- (Reqb_scale l y 0 P), Rmult_0_r. reflexivity. Qed.
Lemma Rdiv_scale : forall l x y : R, 0 < l -> (l * x) / (l * y) = x / y.
Proof.
  intros l x y P. unfold Rdiv. rewrite Rinv_mult. replace (l * x * (/ l * / y)) with ((l * / l) * (x * / y)) by ring.
  rewrite Rinv_r by lra. ring.
Qed.
Lemma fmin_scale : forall l x y, 0 < l -> std_fmin (A := real_arith) (l * x) (l * y) = l * std_fmin (A := real_arith) x y.
Proof. intros l x y P. unfold std_fmin. rsimp. rewrite Rltb_scale by exact P. destruct (Rltb y x); reflexivity. Qed.
Lemma fmaxs_scale : forall l x y, 0 < l -> std_fmaxs (A := real_arith) (l * x) (l * y) = l * std_fmaxs (A := real_arith) x y.
Proof. intros l x y P. unfold std_fmaxs. rsimp. rewrite Rltb_scale by exact P. destruct (Rltb _ _); reflexivity. Qed.
Lemma normalize01_scale : forall l a b x, 0 < l ->
  normalize01 (A := real_arith) (l * a) (l * b) (l * x) = normalize01 (A := real_arith) a b x.
Proof.
  intros l a b x P. unfold normalize01. rsimp. rewrite Reqb_scale, Rltb_scale by exact P.
  destruct (Reqb a b); [reflexivity|]. rewrite <- !Rmult_minus_distr_l, Rdiv_scale by exact P. reflexivity.
Qed.
Lemma inverse_lerp_scale : forall l a b x, 0 < l ->
  inverse_lerp (A := real_arith) (l * a) (l * b) (l * x) = inverse_lerp (A := real_arith) a b x.
Proof.
  intros l a b x P. unfold inverse_lerp. rsimp. rewrite <- !Rmult_minus_distr_l, Reqb_0scale, Rdiv_scale by exact P. reflexivity.
Qed.

(** ** Proof: vectors *)
Section Proofs.
Variable g : motion.
Hypothesis G : similarity g.
Notation s := (g_scale g).
Notation k := (g_unit g).
Notation V := (Vec2 (A := real_arith)).
Notation L := (turned g).
Notation P := (moved_pos g).
Notation TT := (moved_time g).

Let s_pos : 0 < s. Proof. apply G. Qed.
Let k_pos : 0 < k. Proof. apply G. Qed.
Let cs1 : g_cos g * g_cos g + g_sin g * g_sin g = 1. Proof. apply G. Qed.
Let ff1 : g_flip g * g_flip g = 1. Proof. unfold g_flip. destruct (g_mirror g); lra. Qed.
Let kn : k <> 0. Proof. pose proof k_pos. lra. Qed.
Let vs_pos : 0 < s / k. Proof. apply Rdiv_lt_0_compat; assumption. Qed.
Let as_pos : 0 < s / (k * k). Proof. apply Rdiv_lt_0_compat; [assumption|apply Rmult_lt_0_compat; assumption]. Qed.

Ltac vec := apply vec_eq; unfold moved_pos, moved_vel, moved_acc, turned, vadd, vsub, vscale, vscale_assign, vdiv, vzero, orthogonal; rsimp;
  match goal with |- @eq _ ?a ?b => change (@eq R a b) end; unfold Rdiv; rewrite ?Rinv_mult; try ring; try (field; lra).

Lemma L_add : forall l a b, vadd (L l a) (L l b) = L l (vadd a b).
Proof. intros. vec. Qed.
Lemma L_sub : forall l a b, vsub (L l a) (L l b) = L l (vsub a b).
Proof. intros. vec. Qed.
Lemma L_zero : forall l, L l vzero = vzero.
Proof. intros. vec. Qed.
Lemma L_scale : forall l (x : R) v, vscale (A := real_arith) x (L l v) = L l (vscale (A := real_arith) x v).
Proof. intros. vec. Qed.
Lemma L_scale_k : forall l m (x : R) v, vscale (A := real_arith) (m * x) (L l v) = L (m * l) (vscale (A := real_arith) x v).
Proof. intros. vec. Qed.
Lemma L_div_k : forall l m (x : R) v, vdiv (A := real_arith) (L l v) (m * x) = L (l / m) (vdiv (A := real_arith) v x).
Proof. intros. vec. Qed.
Lemma L_div : forall l (x : R) v, vdiv (A := real_arith) (L l v) x = L l (vdiv (A := real_arith) v x).
Proof. intros. vec. Qed.
Lemma L_orth : g_mirror g = false -> forall l v, orthogonal (L l v) = L l (orthogonal v).
Proof. intros NM. intros. unfold turned, g_flip. rewrite NM. vec. Qed.
Lemma P_sub : forall a b, vsub (P a) (P b) = L s (vsub a b).
Proof. intros. vec. Qed.
Lemma P_add : forall a b, vadd (P a) (L s b) = P (vadd a b).
Proof. intros. vec. Qed.
Lemma P_add' : forall a b, vadd (L s b) (P a) = P (vadd b a).
Proof. intros. vec. Qed.
Lemma L_eq : forall l m v, l = m -> L l v = L m v.
Proof. intros. subst. reflexivity. Qed.
Lemma T_sub : forall a b : R, TT a - TT b = k * (a - b).
Proof. intros. unfold moved_time. ring. Qed.

Lemma L_dot : forall l m a b, vdot (L l a) (L m b) = (l * m) * vdot a b.
Proof.
  intros. unfold vdot, turned. rsimp. match goal with |- @eq _ ?a ?b => change (@eq R a b) end.
  transitivity (l * m * (vx a * vx b + (g_flip g * g_flip g) * (vy a * vy b)) * (g_cos g * g_cos g + g_sin g * g_sin g)); [rring|rewrite cs1, ff1; rring].
Qed.
Lemma L_cross : g_mirror g = false -> forall l m a b, cross (L l a) (L m b) = (l * m) * cross a b.
Proof.
  intros NM. intros. unfold cross, turned, g_flip. rewrite NM. rsimp. match goal with |- @eq _ ?a ?b => change (@eq R a b) end.
  transitivity (l * m * (vx a * vy b - vy a * vx b) * (g_cos g * g_cos g + g_sin g * g_sin g)); [rring|rewrite cs1; rring].
Qed.
Lemma L_mag : forall l v, 0 <= l -> magnitude (L l v) = l * magnitude v.
Proof.
  intros l v H. assert (E := L_dot l l v v). unfold vdot in E. unfold magnitude. rsimp.
  match type of E with @eq _ ?a ?b => change (@eq R a b) in E end. match goal with |- @eq _ (sqrt ?a) _ => replace a with (l * l * (vx v * vx v + vy v * vy v)) by (symmetry; exact E) end.
  rewrite sqrt_mult_alt by nra. rewrite sqrt_square by exact H. reflexivity.
Qed.
Lemma L_veqb : forall l a b, 0 < l -> veqb (L l a) (L l b) = veqb a b.
Proof.
  intros l a b H. unfold veqb. destruct (feqb (vx a) (vx b) && feqb (vy a) (vy b)) eqn:E.
  - apply andb_prop in E. destruct E as [E1 E2]. unfold turned. rsimp. apply Reqb_true in E1, E2. rewrite E1, E2.
    rewrite !(proj2 (Reqb_true _ _)) by reflexivity. reflexivity.
  - apply andb_false_iff in E. apply andb_false_iff. unfold turned. rsimp.
    set (fa := g_flip g * vy a). set (fb := g_flip g * vy b).
    destruct (Reqb (l * (g_cos g * vx a - g_sin g * fa)) (l * (g_cos g * vx b - g_sin g * fb))) eqn:Q1; [|left; reflexivity].
    destruct (Reqb (l * (g_sin g * vx a + g_cos g * fa)) (l * (g_sin g * vx b + g_cos g * fb))) eqn:Q2; [exfalso|right; reflexivity].
    rewrite Reqb_scale in Q1, Q2 by exact H. apply Reqb_true in Q1, Q2.
    assert (X : (vx a : R) = vx b).
    { transitivity ((g_cos g * g_cos g + g_sin g * g_sin g) * vx a); [rewrite cs1; symmetry; apply Rmult_1_l|].
      transitivity (g_cos g * (g_cos g * vx a - g_sin g * fa) + g_sin g * (g_sin g * vx a + g_cos g * fa)); [rring|].
      rewrite Q1, Q2. transitivity ((g_cos g * g_cos g + g_sin g * g_sin g) * vx b); [rring|rewrite cs1; rring]. }
    assert (Y0 : fa = fb).
    { transitivity ((g_cos g * g_cos g + g_sin g * g_sin g) * fa); [rewrite cs1; symmetry; apply Rmult_1_l|].
      transitivity (g_cos g * (g_sin g * vx a + g_cos g * fa) - g_sin g * (g_cos g * vx a - g_sin g * fa)); [rring|].
      rewrite Q1, Q2. transitivity ((g_cos g * g_cos g + g_sin g * g_sin g) * fb); [rring|rewrite cs1; rring]. }
    assert (Y : (vy a : R) = vy b).
    { transitivity ((g_flip g * g_flip g) * vy a); [rewrite ff1; symmetry; apply Rmult_1_l|]. transitivity (g_flip g * fa); [unfold fa; apply Rmult_assoc|]. rewrite Y0. unfold fb.
      transitivity ((g_flip g * g_flip g) * vy b); [symmetry; apply Rmult_assoc|rewrite ff1; apply Rmult_1_l]. }
    destruct E as [E|E]; apply Reqb_false in E; contradiction.
Qed.
Lemma P_veqb : forall a b, veqb (P a) (P b) = veqb a b.
Proof.
  intros a b. rewrite <- (L_veqb s a b s_pos). unfold veqb, moved_pos. rsimp. f_equal.
  - destruct (Reqb (vx (L s a)) (vx (L s b))) eqn:E; [apply Reqb_true in E; apply Reqb_true; rewrite E; reflexivity|].
    apply Reqb_false in E. apply Reqb_false. intros Q. apply E. apply Rplus_eq_reg_r in Q. exact Q.
  - destruct (Reqb (vy (L s a)) (vy (L s b))) eqn:E; [apply Reqb_true in E; apply Reqb_true; rewrite E; reflexivity|].
    apply Reqb_false in E. apply Reqb_false. intros Q. apply E. apply Rplus_eq_reg_r in Q. exact Q.
Qed.
Lemma T_ltb : forall a b, Rltb (TT a) (TT b) = Rltb a b.
Proof.
  intros a b. rewrite <- (Rltb_scale k a b k_pos). unfold moved_time. destruct (Rltb (k * a) (k * b)) eqn:E.
  - apply Rltb_true in E. apply Rltb_true. lra.
  - apply Rltb_false in E. apply Rltb_false. lra.
Qed.
Lemma T_eqb : forall a b, Reqb (TT a) (TT b) = Reqb a b.
Proof.
  intros a b. rewrite <- (Reqb_scale k a b k_pos). unfold moved_time. destruct (Reqb (k * a) (k * b)) eqn:E.
  - apply Reqb_true in E. apply Reqb_true. lra.
  - apply Reqb_false in E. apply Reqb_false. lra.
Qed.
Lemma P_dist : forall a b, distance (P a) (P b) = s * distance a b.
Proof. intros a b. unfold distance. rewrite P_sub. apply L_mag. pose proof s_pos. lra. Qed.

(** *** Interpolation *)
Lemma P_interp : forall a b x, interp_v (P a) (P b) x = P (interp_v a b x).
Proof. intros. unfold interp_v. rewrite P_sub, L_scale, P_add. reflexivity. Qed.
Lemma L_interp : forall l a b x, interp_v (L l a) (L l b) x = L l (interp_v a b x).
Proof. intros. unfold interp_v. rewrite L_sub, L_scale, L_add. reflexivity. Qed.
Lemma T_interp : forall (a b x : R), interp_t (A := real_arith) (TT a) (TT b) x = TT (interp_t (A := real_arith) a b x).
Proof. intros. unfold interp_t, moved_time. rsimp. ring. Qed.
Lemma R_interp : forall fuel a b x, interp_result fuel (moved_result g a) (moved_result g b) x = omap (moved_result g) (interp_result fuel a b x).
Proof.
  intros. unfold interp_result, omap. cbn [moved_result r_pos r_vel r_acc r_time r_pressure r_tilt r_orient].
  match goal with |- (let* orient := ?e in _) = _ => destruct e as [o| |] end; cbn [obind]; try reflexivity.
  unfold moved_vel, moved_acc. rewrite P_interp, !L_interp, T_interp. reflexivity.
Qed.
Lemma nearest_moved : forall a b p, nearest_point_on_segment (P a) (P b) (P p) = nearest_point_on_segment a b p.
Proof.
  intros. unfold nearest_point_on_segment. rewrite P_veqb. destruct (veqb a b); [reflexivity|].
  rewrite !P_sub, !L_dot. rsimp. rewrite Rdiv_scale by (apply Rmult_lt_0_compat; apply s_pos). reflexivity.
Qed.

(** *** The position modeler *)
Definition moved_tip (t : TipState (A := real_arith)) : TipState :=
  mkTip (A := real_arith) (P (t_pos t)) (moved_vel g (t_vel t)) (moved_acc g (t_acc t)) (TT (t_time t)).

Lemma angle_moved : forall l a b, 0 < l -> absolute_angle_to (L l a) (L l b) = absolute_angle_to a b.
Proof.
  intros l a b H. unfold absolute_angle_to. cbn [vfinite fisfinite fisnan fisinf real_arith negb andb orb].
  rewrite !L_mag by lra. rsimp. rewrite !Reqb_0scale by exact H.
  destruct (Reqb (magnitude a) 0 || Reqb (magnitude b) 0); [reflexivity|].
  rewrite !L_div_k, L_dot. do 3 f_equal. transitivity (1 * 1 * vdot (vdiv a (magnitude a)) (vdiv b (magnitude b))); [|rring].
  f_equal. f_equal; unfold Rdiv; apply Rinv_r; lra.
Qed.

Lemma steps_moved : forall tip a b sp pp,
  number_of_steps (moved_tip tip) (moved_input g a) (moved_input g b) (moved_sampling g sp) (moved_position g pp) =
  number_of_steps tip a b sp pp.
Proof.
  intros. unfold number_of_steps. cbn [moved_tip moved_input moved_sampling moved_position i_time i_pos t_pos t_vel sp_rate sp_max_angle sp_max_outputs pp_spring].
  assert (E1 : dsub (TT (i_time b)) (TT (i_time a)) = k * dsub (i_time b) (i_time a)) by (rsimp; apply T_sub). rewrite E1.
  assert (E2 : dmul (f2d (d2f (k * dsub (i_time b) (i_time a)))) (sp_rate sp / k) = dmul (f2d (d2f (dsub (i_time b) (i_time a)))) (sp_rate sp)).
  { rsimp. match goal with |- @eq _ ?a ?b => change (@eq R a b) end. field. exact kn. }
  rewrite E2. rewrite P_sub.
  assert (E3 : vscale (d2f (k * dsub (i_time b) (i_time a))) (vdiv (L s (vsub (i_pos b) (t_pos tip))) (k * k * pp_spring pp)) =
    L (s / k) (vscale (d2f (dsub (i_time b) (i_time a))) (vdiv (vsub (i_pos b) (t_pos tip)) (pp_spring pp)))).
  { rewrite L_div_k. cbn [d2f real_arith]. rewrite L_scale_k. apply L_eq. field. exact kn. }
  rewrite E3. unfold moved_vel. rewrite L_add, angle_moved by exact vs_pos. reflexivity.
Qed.

Lemma tip_moved : forall pp t a (x : D (Arith := real_arith)), tip_update (moved_position g pp) (moved_tip t) (P a) (TT x) = moved_tip (tip_update pp t a x).
Proof.
  intros. unfold tip_update. cbn [moved_tip t_pos t_vel t_acc t_time moved_position pp_spring pp_drag].
  assert (E1 : d2f (dsub (TT x) (TT (t_time t))) = k * d2f (dsub x (t_time t))) by (rsimp; apply T_sub). rewrite E1.
  set (dt := d2f (dsub x (t_time t))). clearbody dt.
  assert (EA : vsub (vdiv (vsub (P a) (P (t_pos t))) (k * k * pp_spring pp)) (vscale (A := real_arith) (pp_drag pp / k) (moved_vel g (t_vel t))) =
    moved_acc g (vsub (vdiv (vsub a (t_pos t)) (pp_spring pp)) (vscale (pp_drag pp) (t_vel t)))).
  { rewrite P_sub, L_div_k. unfold moved_vel, moved_acc. replace (pp_drag pp / k) with (/ k * pp_drag pp) by (unfold Rdiv; apply Rmult_comm). rewrite L_scale_k.
    rewrite (L_eq (/ k * (s / k)) (s / (k * k))) by (field; exact kn). apply L_sub. }
  rewrite EA. set (acc := vsub (vdiv (vsub a (t_pos t)) (pp_spring pp)) (vscale (pp_drag pp) (t_vel t))). clearbody acc.
  assert (EV : vadd (moved_vel g (t_vel t)) (vscale (A := real_arith) (k * dt) (moved_acc g acc)) = moved_vel g (vadd (t_vel t) (vscale dt acc))).
  { unfold moved_vel, moved_acc. rewrite L_scale_k, (L_eq (k * (s / (k * k))) (s / k)) by (field; exact kn). apply L_add. }
  rewrite EV. set (vel := vadd (t_vel t) (vscale dt acc)). clearbody vel.
  unfold moved_tip. cbn [t_pos t_vel t_acc t_time]. f_equal.
  unfold moved_vel. rewrite L_scale_k, (L_eq (k * (s / k)) s) by (field; exact kn). apply P_add.
Qed.

Lemma path_moved : forall q pp t sp st ep et n i,
  path_loop (moved_position g pp) (moved_tip t) (P sp) (TT st) (P ep) (TT et) n i q =
  (let '(a, b) := path_loop pp t sp st ep et n i q in (moved_tip a, map moved_tip b)).
Proof.
  induction q as [|q IH]; intros; cbn [path_loop]; [reflexivity|].
  rewrite P_interp, T_interp, tip_moved, IH. destruct (path_loop _ _ _ _ _ _ _ _ _). reflexivity.
Qed.
Definition moved_tips (x : TipState (A := real_arith) * list (TipState (A := real_arith))) := (moved_tip (fst x), map moved_tip (snd x)).
Lemma along_moved : forall pp t sp st ep et n,
  update_along_path (moved_position g pp) (moved_tip t) (P sp) (TT st) (P ep) (TT et) n =
  omap moved_tips (update_along_path pp t sp st ep et n).
Proof.
  intros. unfold update_along_path. destruct (Z.leb INT_MAX n); [reflexivity|]. rewrite path_moved.
  destruct (path_loop _ _ _ _ _ _ _ _ _). reflexivity.
Qed.
Lemma end_moved : forall q pp t a (d : R) (x : R),
  model_end_of_stroke (moved_position g pp) (moved_tip t) (P a) (k * d) q (s * x) =
  moved_tips (model_end_of_stroke (A := real_arith) pp t a d q x).
Proof.
  induction q as [|q IH]; intros; cbn [model_end_of_stroke]; [reflexivity|].
  assert (E : dadd (t_time (moved_tip t)) (k * d) = TT (dadd (t_time t) d)) by (cbn [moved_tip t_time]; rsimp; unfold moved_time; ring). rewrite E.
  rewrite tip_moved. set (c := tip_update pp t a (dadd (t_time t) d)). clearbody c. clear E.
  change (t_pos (moved_tip t)) with (P (t_pos t)). change (t_pos (moved_tip c)) with (P (t_pos c)).
  rewrite !P_dist, nearest_moved. cbn [fltb real_arith]. rewrite !Rltb_scale by exact s_pos.
  destruct (Rltb _ x); [reflexivity|]. destruct (Rltb (nearest_point_on_segment (t_pos t) (t_pos c) a) _).
  - assert (E : dmul (k * d) (ddiv (dofZ 1) (dofZ 2)) = k * dmul (Arith := real_arith) d (ddiv (Arith := real_arith) (dofZ 1) (dofZ 2))) by (rsimp; apply Rmult_assoc).
    rewrite E. apply IH.
  - destruct (Rltb _ x); [reflexivity|]. rewrite IH. destruct (model_end_of_stroke _ _ _ _ _ _). reflexivity.
Qed.
Lemma rate_moved : forall sp, ddiv (dofZ 1) (sp_rate (moved_sampling g sp)) = k * ddiv (Arith := real_arith) (dofZ 1) (sp_rate sp).
Proof.
  intros. cbn [moved_sampling sp_rate]. rsimp. unfold Rdiv. rewrite Rinv_mult, Rinv_inv. rring.
Qed.

(** *** The wobble smoother *)
Definition shift : V := mkVec2 (A := real_arith) (g_dx g) (g_dy g).
Definition moved_ws (w : WSample (A := real_arith)) : WSample :=
  mkWSample (A := real_arith) (P (ws_pos w)) (vadd (L (s * k) (ws_wpos w)) (vscale (A := real_arith) (k * ws_dur w) shift))
    (s * ws_dist w) (k * ws_dur w) (TT (ws_time w)).
Definition moved_wst (w : WState (A := real_arith)) : WState :=
  mkWState (A := real_arith) (map moved_ws (w_samples w)) (vadd (L (s * k) (w_wsum w)) (vscale (A := real_arith) (k * w_tsum w) shift))
    (s * w_dsum w) (k * w_tsum w).
Definition moved_w (w : Wobble (A := real_arith)) : Wobble :=
  mkWobble (A := real_arith) (moved_wst (w_state w)) (moved_wst (w_saved w)) (w_save_active w) (moved_wobble g (w_params w)).

Lemma back_map : forall {X Y} (f : X -> Y) l, back (map f l) = option_map f (back l).
Proof. intros. unfold back. rewrite map_length. apply nth_error_map. Qed.

Lemma trim_moved : forall l ws (ds ts lim : R),
  wobble_trim (A := real_arith) (map moved_ws l) (vadd (L (s * k) ws) (vscale (A := real_arith) (k * ts) shift)) (s * ds) (k * ts) (TT lim) =
  omap moved_wst (wobble_trim (A := real_arith) l ws ds ts lim).
Proof.
  induction l as [|a l IH]; intros; cbn [wobble_trim map]; [reflexivity|].
  change (ws_time (moved_ws a)) with (TT (ws_time a)). cbn [dltb real_arith]. rewrite T_ltb. destruct (Rltb (ws_time a) lim); [|reflexivity].
  rewrite <- IH. cbn [moved_ws ws_wpos ws_dist ws_dur]. f_equal.
  - apply vec_eq; unfold vsub, vadd, vscale, turned; rsimp; rring.
  - rsimp. rring.
  - rsimp. rring.
Qed.

Definition moved_wp (x : Wobble (A := real_arith) * V) := (moved_w (fst x), P (snd x)).
Lemma wobble_moved : forall w pos (x : D (Arith := real_arith)), wobble_update (moved_w w) (P pos) (TT x) = omap moved_wp (wobble_update w pos x).
Proof.
  intros. unfold wobble_update. change (w_params (moved_w w)) with (moved_wobble g (w_params w)).
  change (wp_enabled (moved_wobble g (w_params w))) with (wp_enabled (w_params w)). destruct (negb (wp_enabled (w_params w))); [reflexivity|].
  change (w_samples (w_state (moved_w w))) with (map moved_ws (w_samples (w_state w))). rewrite back_map.
  destruct (back (w_samples (w_state w))) as [b|]; cbn [option_map]; [|reflexivity].
  cbn [ws_wpos ws_dist ws_dur]. change (ws_time (moved_ws b)) with (TT (ws_time b)). change (ws_pos (moved_ws b)) with (P (ws_pos b)).
  assert (E1 : dsub (TT x) (TT (ws_time b)) = k * dsub x (ws_time b)) by (rsimp; apply T_sub). rewrite E1. set (dt := dsub x (ws_time b)). clearbody dt. clear E1.
  assert (ES : mkWSample (P pos) (vscale (d2f (k * dt)) (P pos)) (distance (P pos) (P (ws_pos b))) (k * dt) (TT x) =
    moved_ws (mkWSample pos (vscale (d2f dt) pos) (distance pos (ws_pos b)) dt x)).
  { unfold moved_ws. cbn [ws_pos ws_wpos ws_dist ws_dur ws_time]. rewrite P_dist. f_equal.
    apply vec_eq; unfold vadd, vscale, moved_pos, turned, shift; rsimp; rring. }
  rewrite ES. set (sm := mkWSample pos (vscale (d2f dt) pos) (distance pos (ws_pos b)) dt x).
  change (k * dt) with (ws_dur (moved_ws sm)). change (vscale (d2f (ws_dur (moved_ws sm))) (P pos)) with (vscale (A := real_arith) (k * dt) (P pos)).
  assert (EW : vscale (A := real_arith) (k * dt) (P pos) = ws_wpos (moved_ws sm)).
  { apply (f_equal ws_wpos ES). }
  rewrite EW. rewrite P_dist. change (s * distance pos (ws_pos b)) with (ws_dist (moved_ws sm)).
  change (map moved_ws (w_samples (w_state w)) ++ [moved_ws sm]) with (map moved_ws (w_samples (w_state w)) ++ map moved_ws [sm]). rewrite <- map_app.
  assert (ET : wobble_trim (map moved_ws (w_samples (w_state w) ++ [sm])) (vadd (w_wsum (w_state (moved_w w))) (ws_wpos (moved_ws sm)))
      (fadd (w_dsum (w_state (moved_w w))) (ws_dist (moved_ws sm))) (d2f (dadd (f2d (w_tsum (w_state (moved_w w)))) (ws_dur (moved_ws sm))))
      (dsub (TT x) (wp_timeout (moved_wobble g (w_params w)))) =
    omap moved_wst (wobble_trim (w_samples (w_state w) ++ [sm]) (vadd (w_wsum (w_state w)) (ws_wpos sm)) (fadd (w_dsum (w_state w)) (ws_dist sm))
      (d2f (dadd (f2d (w_tsum (w_state w))) (ws_dur sm))) (dsub x (wp_timeout (w_params w))))).
  { rewrite <- trim_moved. cbn [moved_w w_state moved_wst w_wsum w_dsum w_tsum moved_ws ws_wpos ws_dist ws_dur moved_wobble wp_timeout]. f_equal.
    - apply vec_eq; unfold vadd, vscale, turned; rsimp; rring.
    - rsimp. rring.
    - rsimp. rring.
    - rsimp. unfold moved_time. rring. }
  rewrite ET. change (vscale (d2f dt) pos) with (ws_wpos sm). change dt with (ws_dur sm). change (distance pos (ws_pos b)) with (ws_dist sm).
  destruct (wobble_trim (w_samples (w_state w) ++ [sm]) _ _ _ _) as [st| |]; cbn [omap obind]; try reflexivity.
  change (w_tsum (moved_wst st)) with (k * w_tsum st). cbn [feqb real_arith]. unfold f0 at 1 2. cbn [fofZ real_arith]. rewrite Reqb_0scale by exact k_pos.
  destruct (Reqb (w_tsum st) 0) eqn:Z; [reflexivity|]. apply Reqb_false in Z.
  cbn [omap obind]. unfold moved_wp. cbn [fst snd]. do 2 f_equal. rewrite <- P_interp. f_equal.
  - cbn [moved_wst w_wsum]. apply vec_eq; unfold vdiv, vadd, vscale, moved_pos, turned, shift; rsimp;
      match goal with |- @eq _ ?a ?b => change (@eq R a b) end; field; (split; [exact Z|exact kn]).
  - cbn [moved_wst w_dsum moved_wobble wp_floor wp_ceiling]. rewrite <- (normalize01_scale (s / k) (wp_floor (w_params w)) (wp_ceiling (w_params w))) by exact vs_pos. f_equal. cbn [fdiv real_arith].
    match goal with |- @eq _ ?a ?b => change (@eq R a b) end. field. split; [exact Z|exact kn].
Qed.

(** *** Loop contraction mitigation *)
Definition moved_speed (x : SpeedSample (A := real_arith)) : SpeedSample := mkSpeed (A := real_arith) (s / k * ss_speed x) (TT (ss_time x)).
Definition moved_lm (m : LoopModeler (A := real_arith)) : LoopModeler :=
  mkLoop (A := real_arith) (map moved_speed (l_samples m)) (map moved_speed (l_saved m)) (l_save_active m) (moved_loop g (l_params m)).
Lemma sum_moved : forall l (a : R),
  fold_left (fun sum x => fadd sum (ss_speed x)) (map moved_speed l) (s / k * a) = s / k * fold_left (fun (sum : R) x => fadd (Arith := real_arith) sum (ss_speed x)) l a.
Proof.
  induction l as [|x l IH]; intros a; cbn [map fold_left]; [reflexivity|]. rewrite <- IH. f_equal. cbn [moved_speed ss_speed]. rsimp. rring.
Qed.
Lemma average_moved : forall l, average_speed (map moved_speed l) = s / k * average_speed l.
Proof.
  intros. unfold average_speed. rewrite map_length. replace (f0 (A := real_arith)) with (s / k * f0 (A := real_arith)) at 1 by (unfold f0; cbn [fofZ real_arith]; ring).
  rewrite sum_moved. rsimp. unfold Rdiv. rring.
Qed.
Lemma value_moved : forall p l, loop_value (moved_loop g p) (map moved_speed l) = loop_value p l.
Proof.
  intros p [|x l]; [reflexivity|]. cbn [map loop_value]. cbn [moved_loop lp_enabled lp_strength_lower lp_strength_upper lp_speed_lower lp_speed_upper].
  destruct (negb (lp_enabled p)); [reflexivity|]. change (moved_speed x :: map moved_speed l) with (map moved_speed (x :: l)).
  rewrite average_moved, inverse_lerp_scale by exact vs_pos. reflexivity.
Qed.
Lemma get_moved : forall m, loop_get (moved_lm m) = loop_get m.
Proof. intros. apply value_moved. Qed.
Lemma loop_trim_moved : forall p (x : D (Arith := real_arith)) l, loop_trim (moved_loop g p) (TT x) (map moved_speed l) = map moved_speed (loop_trim p x l).
Proof.
  intros p x. induction l as [|a l IH]; [reflexivity|]. cbn [map loop_trim].
  change (List.length (moved_speed a :: map moved_speed l)) with (S (List.length (map moved_speed l))). rewrite map_length. cbn [List.length].
  cbn [moved_loop lp_window lp_min_samples]. change (ss_time (moved_speed a)) with (TT (ss_time a)).
  assert (E : dsub (TT x) (TT (ss_time a)) = k * dsub x (ss_time a)) by (rsimp; apply T_sub). rewrite E. cbn [dltb real_arith].
  rewrite Rltb_scale by exact k_pos. destruct (Rltb _ _ && _); [exact IH|reflexivity].
Qed.
Definition moved_lv (x : LoopModeler (A := real_arith) * R) := (moved_lm (fst x), snd x).
Lemma loop_moved : forall m v (x : D (Arith := real_arith)), loop_update (moved_lm m) (moved_vel g v) (TT x) = moved_lv (loop_update m v x).
Proof.
  intros. unfold loop_update. change (lp_enabled (l_params (moved_lm m))) with (lp_enabled (l_params m)).
  destruct (negb (lp_enabled (l_params m))); [reflexivity|].
  assert (E : magnitude (moved_vel g v) = s / k * magnitude v) by (apply L_mag; pose proof vs_pos; lra).
  assert (ES : loop_trim (l_params (moved_lm m)) (TT x) (l_samples (moved_lm m) ++ [mkSpeed (magnitude (moved_vel g v)) (TT x)]) =
    map moved_speed (loop_trim (l_params m) x (l_samples m ++ [mkSpeed (magnitude v) x]))).
  { rewrite <- loop_trim_moved, map_app. cbn [map]. rewrite E. reflexivity. }
  rewrite ES. generalize (loop_trim (l_params m) x (l_samples m ++ [mkSpeed (magnitude v) x])). intros l.
  unfold moved_lv. cbn [fst snd]. f_equal. unfold loop_get. cbn [l_params l_samples moved_lm]. apply value_moved.
Qed.

(** *** The stylus state modeler *)
Definition moved_sst (x : SState (A := real_arith)) : SState :=
  mkSState (A := real_arith) (s_unk_pressure x) (s_unk_tilt x) (s_unk_orient x) (map (moved_result g) (s_raw x)).
Definition moved_sm (x : Stylus (A := real_arith)) : Stylus :=
  mkStylus (A := real_arith) (moved_sst (sm_state x)) (moved_sst (sm_saved x)) (sm_save_active x) (moved_stylus g (sm_params x)).

Lemma drop_moved : forall p l, should_drop (moved_stylus g p) (map (moved_result g) l) = should_drop p l.
Proof.
  intros. unfold should_drop, size_gt. cbn [moved_stylus sy_normal sy_min_samples sy_max_samples sy_min_duration]. rewrite map_length.
  destruct (sy_normal p); [|reflexivity]. destruct (if Z.ltb _ _ then _ else _); [|reflexivity].
  rewrite back_map, nth_error_map. destruct (back l) as [b|]; cbn [option_map]; [|reflexivity]. destruct (nth_error l 1) as [c|]; cbn [option_map]; [|reflexivity].
  cbn [moved_result r_time]. assert (E : dsub (TT (r_time b)) (TT (r_time c)) = k * dsub (r_time b) (r_time c)) by (rsimp; apply T_sub).
  rewrite E. cbn [dltb real_arith]. rewrite Rltb_scale by exact k_pos. reflexivity.
Qed.
Lemma strim_moved : forall p l, stylus_trim (moved_stylus g p) (map (moved_result g) l) = omap (map (moved_result g)) (stylus_trim p l).
Proof.
  intros p. induction l as [|a l IH]; cbn [stylus_trim map].
  - pose proof (drop_moved p []) as E. cbn [map] in E. rewrite E. destruct (should_drop p []) as [[|]| |]; reflexivity.
  - pose proof (drop_moved p (a :: l)) as E. cbn [map] in E. rewrite E. destruct (should_drop p (a :: l)) as [[|]| |]; cbn [obind omap]; try reflexivity. exact IH.
Qed.
Lemma stylus_moved : forall m pos (x : D (Arith := real_arith)) pr ti o,
  stylus_update (moved_sm m) (P pos) (TT x) pr ti o = omap moved_sm (stylus_update m pos x pr ti o).
Proof.
  intros. unfold stylus_update. cbn [moved_sm sm_state sm_params sm_saved sm_save_active moved_sst s_unk_pressure s_unk_tilt s_unk_orient s_raw moved_stylus sy_normal].
  destruct (negb _ && _ && _ && _); [reflexivity|]. rewrite back_map.
  assert (E : match option_map (moved_result g) (back (s_raw (sm_state m))) with
    | Some b => if negb (deqb (TT x) (r_time b)) then
        let dt := d2f (dsub (TT x) (r_time b)) in let v := vdiv (vsub (P pos) (r_pos b)) dt in (v, vdiv (vsub v (r_vel b)) dt)
        else (vzero, vzero)
    | None => (vzero, vzero) end =
    (let '(v, a) := match back (s_raw (sm_state m)) with
    | Some b => if negb (deqb x (r_time b)) then
        let dt := d2f (dsub x (r_time b)) in let v := vdiv (vsub pos (r_pos b)) dt in (v, vdiv (vsub v (r_vel b)) dt)
        else (vzero, vzero)
    | None => (vzero, vzero) end in (moved_vel g v, moved_acc g a))).
  { destruct (back (s_raw (sm_state m))) as [b|]; cbn [option_map]; [|unfold moved_vel, moved_acc; rewrite !L_zero; reflexivity].
    cbn [moved_result r_time r_pos r_vel deqb real_arith]. rewrite T_eqb.
    destruct (negb (Reqb x (r_time b))); [|unfold moved_vel, moved_acc; rewrite !L_zero; reflexivity]. cbv zeta.
    assert (E1 : d2f (dsub (TT x) (TT (r_time b))) = k * d2f (dsub x (r_time b))) by (rsimp; apply T_sub). rewrite E1.
    unfold moved_vel, moved_acc. rewrite P_sub, L_div_k, L_sub, L_div_k. f_equal. apply L_eq. field. exact kn. }
  match type of E with _ = ?r => match goal with |- (match ?e with pair _ _ => _ end) = _ => replace e with r by (symmetry; exact E) end end. clear E.
  destruct (match back (s_raw (sm_state m)) with Some _ => _ | None => _ end) as [v a].
  change [mkResult (P pos) (moved_vel g v) (moved_acc g a) (TT x) pr ti o] with (map (moved_result g) [mkResult pos v a x pr ti o]).
  rewrite <- map_app, strim_moved. destruct (stylus_trim (sm_params m) _); reflexivity.
Qed.

Lemma unit_moved : forall l v, 0 < l -> unit_vec (L l v) = L 1 (unit_vec v).
Proof. intros l v H. unfold unit_vec. rewrite L_mag by lra. rewrite L_div_k. apply L_eq. apply Rinv_r. lra. Qed.
Lemma normal_moved : g_mirror g = false -> forall t (x : D (Arith := real_arith)), exists l, 0 < l /\
  get_stroke_normal (moved_tip t) (TT x) = option_map (L l) (get_stroke_normal t x).
Proof.
  intros NM. intros. unfold get_stroke_normal. cbn [moved_tip t_vel t_acc t_time]. unfold moved_vel, moved_acc.
  rewrite !L_mag by (pose proof vs_pos; pose proof as_pos; lra).
  set (vm := magnitude (t_vel t)). set (am := magnitude (t_acc t)). rsimp. rewrite !Reqb_0scale by (exact vs_pos || exact as_pos).
  destruct (Reqb vm 0 && Reqb am 0); [exists 1; split; [lra|reflexivity]|].
  destruct (Reqb vm 0); [exists (s / (k * k)); split; [exact as_pos|]; cbn [option_map]; rewrite (L_orth NM); reflexivity|].
  destruct (Reqb am 0); [exists (s / k); split; [exact vs_pos|]; cbn [option_map]; rewrite (L_orth NM); reflexivity|].
  assert (PP : 0 < s / k * (s / (k * k))) by (apply Rmult_lt_0_compat; [exact vs_pos|exact as_pos]).
  assert (EQ : Rltb ((kCosineHalfDegree (A := real_arith) : R) * (s / k * vm) * (s / (k * k) * am)) (Rabs (vdot (L (s / k) (t_vel t)) (L (s / (k * k)) (t_acc t)))) =
    Rltb ((kCosineHalfDegree (A := real_arith) : R) * vm * am) (Rabs (vdot (t_vel t) (t_acc t)))).
  { rewrite L_dot, Rabs_mult, (Rabs_pos_eq (s / k * (s / (k * k)))) by lra. rewrite <- (Rltb_scale (s / k * (s / (k * k))) ((kCosineHalfDegree (A := real_arith) : R) * vm * am) _ PP). f_equal. rring. }
  rewrite EQ. clear EQ. destruct (Rltb _ _); [exists (s / k); split; [exact vs_pos|]; cbn [option_map]; rewrite (L_orth NM); reflexivity|].
  exists 1. split; [lra|]. cbn [option_map]. rewrite T_sub, L_scale_k, (L_eq (k * (s / (k * k))) (s / k)) by (field; exact kn).
  rewrite L_add, !unit_moved by exact vs_pos. rewrite L_add, (L_orth NM). reflexivity.
Qed.

Lemma segment_moved : g_mirror g = false -> forall a b p n l, 0 < l ->
  project_to_segment_along_normal (P a) (P b) (P p) (L l n) = project_to_segment_along_normal a b p n.
Proof.
  intros NM a b p n l H. unfold project_to_segment_along_normal. rewrite !P_sub, !(L_cross NM). rsimp.
  assert (PL : 0 < l * s) by (apply Rmult_lt_0_compat; [exact H|exact s_pos]).
  rewrite Reqb_0scale by exact PL. destruct (Reqb _ 0); [reflexivity|].
  replace (s * l) with (l * s) by ring. rewrite Rdiv_scale by exact PL. reflexivity.
Qed.
Definition moved_proj (x : Projection (A := real_arith)) : Projection :=
  mkProj (A := real_arith) (moved_result g (pj_a x)) (moved_result g (pj_b x)) (pj_ratio x).
Definition moved_best (x : best (A := real_arith)) : best :=
  option_map (fun c : Projection (A := real_arith) * R => (moved_proj (fst c), s * snd c)) x.
Lemma maybe_moved : forall c (d : R) b, maybe_update (moved_proj c) (s * d) (moved_best b) = moved_best (maybe_update (A := real_arith) c d b).
Proof.
  intros c d [[x bd]|]; cbn [maybe_update moved_best option_map fst snd]; [|reflexivity].
  cbn [fltb real_arith]. rewrite Rltb_scale by exact s_pos. destruct (Rltb d bd); reflexivity.
Qed.
Lemma along_loop_moved : g_mirror g = false -> forall p n l, 0 < l -> forall raw x y,
  project_normal_loop (P p) (L l n) (map (moved_result g) raw) (moved_best x) (moved_best y) =
  (let '(a, b) := project_normal_loop p n raw x y in (moved_best a, moved_best b)).
Proof.
  intros NM p n l H. induction raw as [|a raw IH]; intros x y; [reflexivity|]. destruct raw as [|b raw]; [reflexivity|].
  cbn [map project_normal_loop]. cbn [map] in IH. cbn [moved_result r_pos]. rewrite (segment_moved NM) by exact H.
  destruct (project_to_segment_along_normal _ _ _ _) as [q|]; [|apply IH].
  rewrite P_interp, P_dist, P_sub, L_dot. cbn [fltb real_arith]. unfold f0. cbn [fofZ real_arith].
  rewrite Rltb_0scale by (apply Rmult_lt_0_compat; [exact s_pos|exact H]).
  change (mkProj (moved_result g a) (moved_result g b) q) with (moved_proj (mkProj a b q)).
  rewrite !maybe_moved. destruct (Rltb _ 0); apply IH.
Qed.
Lemma along_normal_moved : g_mirror g = false -> forall p acc n l raw, 0 < l ->
  project_along_normal (P p) (moved_acc g acc) (L l n) (map (moved_result g) raw) = option_map moved_proj (project_along_normal p acc n raw).
Proof.
  intros NM p acc n l raw H. unfold project_along_normal. 
  assert (E : project_normal_loop (P p) (L l n) (map (moved_result g) raw) None None =
    (let '(a, b) := project_normal_loop p n raw None None in (moved_best a, moved_best b))) by exact (along_loop_moved NM p n l H raw None None).
  rewrite E. clear E.
  destruct (project_normal_loop p n raw None None) as [[[x dx]|] [[y dy]|]]; cbn [moved_best option_map fst snd]; try reflexivity.
  unfold moved_acc. rewrite L_dot. cbn [fltb real_arith]. unfold f0. cbn [fofZ real_arith].
  rewrite Rltb_scale0 by (apply Rmult_lt_0_compat; [exact H|exact as_pos]). destruct (Rltb 0 _); reflexivity.
Qed.
Lemma closest_moved : forall p raw x,
  project_closest_loop (P p) (map (moved_result g) raw) (moved_best x) = moved_best (project_closest_loop p raw x).
Proof.
  intros p. induction raw as [|a raw IH]; intros x; [reflexivity|]. destruct raw as [|b raw]; [reflexivity|].
  cbn [map project_closest_loop]. cbn [map] in IH. cbn [moved_result r_pos]. rewrite nearest_moved, P_interp, P_dist.
  assert (E : (if match moved_best x with None => fleinf (s * distance p (interp_v (r_pos a) (r_pos b) (nearest_point_on_segment (r_pos a) (r_pos b) p)))
      | Some (_, bd) => fleb (s * distance p (interp_v (r_pos a) (r_pos b) (nearest_point_on_segment (r_pos a) (r_pos b) p))) bd end
    then Some (mkProj (moved_result g a) (moved_result g b) (nearest_point_on_segment (r_pos a) (r_pos b) p), s * distance p (interp_v (r_pos a) (r_pos b) (nearest_point_on_segment (r_pos a) (r_pos b) p)))
    else moved_best x) =
    moved_best (if match x with None => fleinf (distance p (interp_v (r_pos a) (r_pos b) (nearest_point_on_segment (r_pos a) (r_pos b) p)))
      | Some (_, bd) => fleb (distance p (interp_v (r_pos a) (r_pos b) (nearest_point_on_segment (r_pos a) (r_pos b) p))) bd end
    then Some (mkProj a b (nearest_point_on_segment (r_pos a) (r_pos b) p), distance p (interp_v (r_pos a) (r_pos b) (nearest_point_on_segment (r_pos a) (r_pos b) p)))
    else x)).
  { destruct x as [[x bd]|]; cbn [moved_best option_map fst snd]; [|reflexivity]. cbn [fleb real_arith]. rewrite Rleb_scale by exact s_pos.
    destruct (Rleb _ bd); reflexivity. }
  exact (eq_trans (f_equal (project_closest_loop (P p) (map (moved_result g) (b :: raw))) E) (IH _)).
Qed.
Lemma to_closest_moved : forall p raw, project_to_closest (P p) (map (moved_result g) raw) = option_map moved_proj (project_to_closest p raw).
Proof.
  intros. unfold project_to_closest. 
  assert (E : project_closest_loop (P p) (map (moved_result g) raw) None = moved_best (project_closest_loop p raw None)) by exact (closest_moved p raw None).
  rewrite E. clear E.
  destruct (project_closest_loop p raw None) as [[x d]|]; reflexivity.
Qed.
Lemma query_moved : forall fuel m t n n', (sy_normal (sm_params m) = true -> g_mirror g = false /\ exists l, 0 < l /\ n' = option_map (L l) n) -> s_raw (sm_state m) <> [] ->
  stylus_query fuel (moved_sm m) (moved_tip t) n' = omap (moved_result g) (stylus_query fuel m t n).
Proof.
  intros fuel m t n n' H NE. unfold stylus_query. change (s_raw (sm_state (moved_sm m))) with (map (moved_result g) (s_raw (sm_state m))).
  destruct (s_raw (sm_state m)) as [|a raw] eqn:ER; [congruence|]. cbn [map].
  change (sy_normal (sm_params (moved_sm m))) with (sy_normal (sm_params m)).
  change (moved_result g a :: map (moved_result g) raw) with (map (moved_result g) (a :: raw)).
  change (t_pos (moved_tip t)) with (P (t_pos t)). change (t_acc (moved_tip t)) with (moved_acc g (t_acc t)). change (t_time (moved_tip t)) with (TT (t_time t)).
  assert (E : match (if sy_normal (sm_params m) then n' else None) with
    | Some n => project_along_normal (P (t_pos t)) (moved_acc g (t_acc t)) n (map (moved_result g) (a :: raw))
    | None => project_to_closest (P (t_pos t)) (map (moved_result g) (a :: raw)) end =
    option_map moved_proj (match (if sy_normal (sm_params m) then n else None) with
    | Some n => project_along_normal (t_pos t) (t_acc t) n (a :: raw)
    | None => project_to_closest (t_pos t) (a :: raw) end)).
  { destruct (sy_normal (sm_params m)); [|apply to_closest_moved]. destruct (H eq_refl) as (NM & l & PL & ->).
    destruct n as [n|]; cbn [option_map]; [apply (along_normal_moved NM); exact PL|apply to_closest_moved]. }
  rewrite E. destruct (match (if sy_normal (sm_params m) then n else None) with Some _ => _ | None => _ end) as [pj|]; cbn [option_map].
  - cbn [moved_proj pj_a pj_b pj_ratio]. rewrite R_interp. destruct (interp_result _ _ _ _); reflexivity.
  - rewrite back_map. destruct (back (a :: raw)) as [b|]; cbn [option_map obind omap]; [|reflexivity].
    cbn [moved_result r_pos]. rewrite !P_dist. cbn [fltb real_arith]. rewrite Rltb_scale by exact s_pos. destruct (Rltb _ _); reflexivity.
Qed.

(** *** The loop over the tip states *)
Definition moved_out (x : LoopModeler (A := real_arith) * list (Result (A := real_arith))) := (moved_lm (fst x), map (moved_result g) (snd x)).
Lemma query_empty : forall fuel m t n, s_raw (sm_state m) = [] -> stylus_query (A := real_arith) fuel m t n = Ret result_no_info.
Proof. intros fuel m t n H. unfold stylus_query. rewrite H. reflexivity. Qed.
Lemma interp_v_one : forall a b : V, interp_v a b (1 : R) = b.
Proof.
  intros. unfold interp_v. replace (clamp01 (A := real_arith) 1) with (1 : R) by (symmetry; apply clamp01_id; lra).
  apply vec_eq; unfold vadd, vscale, vsub; rsimp; match goal with |- @eq _ ?a ?b => change (@eq R a b) end; rring.
Qed.
Lemma interp_t_one : forall a b : R, interp_t (A := real_arith) a b 1 = b.
Proof.
  intros. unfold interp_t. replace (clamp01 (A := real_arith) 1) with (1 : R) by (symmetry; apply clamp01_id; lra). rsimp. ring.
Qed.
Lemma tip_result_moved : forall fuel r0 t (v : R),
  interp_result fuel (moved_result g r0) (make_result (moved_tip t) (moved_result g r0)) v = omap (moved_result g) (interp_result (A := real_arith) fuel r0 (make_result t r0) v).
Proof. intros. exact (R_interp fuel r0 (make_result t r0) v). Qed.
Lemma tip_result_one : forall fuel r0 t,
  interp_result fuel r0 (make_result (moved_tip t) r0) (1 : R) = omap (moved_result g) (interp_result (A := real_arith) fuel r0 (make_result t r0) 1).
Proof.
  intros. unfold interp_result. cbn [make_result moved_tip r_pos r_vel r_acc r_time r_pressure r_tilt r_orient t_pos t_vel t_acc t_time].
  match goal with |- (let* orient := ?e in _) = _ => destruct e as [o| |] end; cbn [obind omap]; try reflexivity.
  rewrite !interp_v_one, !interp_t_one. reflexivity.
Qed.
Lemma stylus_loop_moved : forall fuel sm tips lm (v : R) (pt : D (Arith := real_arith)),
  (g_mirror g = true -> sy_normal (sm_params sm) = false) ->
  (s_raw (sm_state sm) <> [] \/ lp_enabled (l_params lm) = false /\ v = 1) ->
  model_stylus_loop fuel (map moved_tip tips) (moved_sm sm) (moved_lm lm) v (TT pt) =
  omap moved_out (model_stylus_loop (A := real_arith) fuel tips sm lm v pt).
Proof.
  intros fuel sm. induction tips as [|t tips IH]; intros lm v pt FL C; cbn [map model_stylus_loop]; [reflexivity|].
  change (t_time (moved_tip t)) with (TT (t_time t)).
  assert (K : (let* projected := stylus_query fuel (moved_sm sm) (moved_tip t) (get_stroke_normal (moved_tip t) (TT pt)) in
      interp_result fuel projected (make_result (moved_tip t) projected) v) =
    omap (moved_result g) (let* projected := stylus_query fuel sm t (get_stroke_normal t pt) in
      interp_result fuel projected (make_result t projected) v)).
  { assert (QN : sy_normal (sm_params sm) = true -> g_mirror g = false /\ exists l, 0 < l /\ get_stroke_normal (moved_tip t) (TT pt) = option_map (L l) (get_stroke_normal t pt)).
    { intros SN. destruct (g_mirror g) eqn:NM; [rewrite (FL eq_refl) in SN; discriminate SN|]. split; [reflexivity|apply (normal_moved NM)]. }
    destruct C as [C|[_ C]].
    - rewrite (query_moved fuel sm t _ _ QN C). destruct (stylus_query fuel sm t _) as [r0| |]; cbn [omap obind]; try reflexivity. apply tip_result_moved.
    - subst v. destruct (s_raw (sm_state sm)) as [|r1 rs] eqn:ER.
      + rewrite !query_empty by (try exact ER; cbn [moved_sm sm_state moved_sst s_raw]; rewrite ER; reflexivity). cbn [obind]. apply tip_result_one.
      + rewrite (query_moved fuel sm t _ _ QN) by congruence. destruct (stylus_query fuel sm t _) as [r0| |]; cbn [omap obind]; try reflexivity. apply tip_result_moved. }
  unfold omap in K |- *.
  destruct (stylus_query fuel (moved_sm sm) _ _) as [a|e|], (stylus_query fuel sm t _) as [b|e'|]; cbn [obind] in K |- *; try congruence;
    try (destruct (interp_result fuel b (make_result t b) v) as [y| |]; cbn [obind] in K |- *; congruence);
    try (rewrite K; reflexivity).
  - rewrite K. clear K. destruct (interp_result fuel b (make_result t b) v) as [y| |]; cbn [obind]; try reflexivity.
    change (r_vel (moved_result g y)) with (moved_vel g (r_vel y)). rewrite loop_moved.
    destruct (loop_update lm (r_vel y) (t_time t)) as [l1 v1] eqn:LU. unfold moved_lv. cbn [fst snd].
    rewrite IH; [|exact FL|].
    2:{ destruct C as [C|[C _]]; [left; exact C|right]. destruct (loop_update_off _ _ _ _ _ C LU) as [-> ->]. split; [exact C|reflexivity]. }
    destruct (model_stylus_loop fuel tips sm l1 v1 (t_time t)) as [[l2 o2]| |]; reflexivity.
Qed.
Lemma model_stylus_moved : forall fuel tips sm lm (pt : D (Arith := real_arith)),
  (g_mirror g = true -> sy_normal (sm_params sm) = false) ->
  (lp_enabled (l_params lm) = true -> s_raw (sm_state sm) <> []) ->
  model_stylus fuel (map moved_tip tips) (moved_sm sm) (moved_lm lm) (TT pt) = omap moved_out (model_stylus fuel tips sm lm pt).
Proof.
  intros fuel tips sm lm pt FL NE. unfold model_stylus. rewrite get_moved. apply stylus_loop_moved; [exact FL|].
  destruct (lp_enabled (l_params lm)) eqn:E; [left; apply NE; reflexivity|right]. split; [reflexivity|].
  unfold loop_get. rewrite loop_value_off by exact E. reflexivity.
Qed.

(** *** The Kalman predictor *)
Notation V4 := (Vec4 (A := real_arith)).
Definition mix (a b w : R) (u v : V4) : V4 :=
  mkVec4 (A := real_arith) (a * q0 u + b * q0 v + w) (a * q1 u + b * q1 v) (a * q2 u + b * q2 v) (a * q3 u + b * q3 v).
Lemma vec4_eq : forall a b : V4, q0 a = q0 b -> q1 a = q1 b -> q2 a = q2 b -> q3 a = q3 b -> a = b.
Proof. intros [a b c d] [e f h i]; cbn. intros; subst; reflexivity. Qed.
Lemma transition_mix : forall a b w u v,
  mat4_vec kf_transition (mix a b w u v) = mix a b w (mat4_vec kf_transition u) (mat4_vec kf_transition v).
Proof.
  intros. apply vec4_eq; unfold mat4_vec, kf_transition, dot4, mix, dhalf, dsixth, d0, d1; cbn [q0 q1 q2 q3 row0 row1 row2 row3];
    rsimp; match goal with |- @eq _ ?a ?b => change (@eq R a b) end; field.
Qed.
Lemma measure_q0 : forall u : V4, dot4 kf_measure u = q0 u.
Proof. intros. unfold dot4, kf_measure, d0, d1. cbn [q0 q1 q2 q3]. rsimp. match goal with |- @eq _ ?a ?b => change (@eq R a b) end. ring. Qed.
Lemma gain_mix : forall a b w (gain u v : V4) (x y : R),
  vec4_add (mix a b w u v) (vec4_scale gain (a * x + b * y : R)) = mix a b w (vec4_add u (vec4_scale (A := real_arith) gain x)) (vec4_add v (vec4_scale (A := real_arith) gain y)).
Proof.
  intros. apply vec4_eq; unfold vec4_add, vec4_scale, vec4_map, vec4_map2, mix; cbn [q0 q1 q2 q3]; rsimp;
    match goal with |- @eq _ ?a ?b => change (@eq R a b) end; ring.
Qed.
Notation KF := (KFilter (A := real_arith)).
(** Two filters with the same variances, and the filters of the moved drawing. *)
Definition mixed (a b w : R) (x y z : KF) : Prop :=
  kf_cov y = kf_cov x /\ kf_iter y = kf_iter x /\ kf_cov z = kf_cov x /\ kf_iter z = kf_iter x /\ (0 <= kf_iter x)%Z /\
  q1 (kf_state z) = a * q1 (kf_state x) + b * q1 (kf_state y) /\
  q2 (kf_state z) = a * q2 (kf_state x) + b * q2 (kf_state y) /\
  q3 (kf_state z) = a * q3 (kf_state x) + b * q3 (kf_state y) /\
  ((0 < kf_iter x)%Z -> q0 (kf_state z) = a * q0 (kf_state x) + b * q0 (kf_state y) + w).
Lemma mixed_state : forall a b w x y z, mixed a b w x y z -> (0 < kf_iter x)%Z -> kf_state z = mix a b w (kf_state x) (kf_state y).
Proof. intros a b w x y z (_ & _ & _ & _ & _ & E1 & E2 & E3 & E0) I. apply vec4_eq; cbn [mix q0 q1 q2 q3]; auto. Qed.
Lemma mixed_reset : forall a b w, mixed a b w kf_reset kf_reset kf_reset.
Proof.
  intros. repeat split; try reflexivity; try (cbn; lia);
    cbn [kf_reset kf_state vec4_zero q1 q2 q3]; unfold d0; rsimp; try (match goal with |- @eq _ ?a ?b => change (@eq R a b) end; ring).
Qed.
Lemma correct_mixed : forall a b w mn x y z (ox oy : R),
  kf_cov y = kf_cov x -> kf_cov z = kf_cov x -> kf_state z = mix a b w (kf_state x) (kf_state y) ->
  kf_state (kf_correct mn z (a * ox + b * oy + w)) = mix a b w (kf_state (kf_correct (A := real_arith) mn x ox)) (kf_state (kf_correct (A := real_arith) mn y oy)).
Proof.
  intros a b w mn x y z ox oy Cy Cz Sz. unfold kf_correct. cbn [kf_state]. rewrite Cy, Cz, Sz, !measure_q0.
  generalize (vec4_div (vec4_mat kf_measure (kf_cov x)) (kf_innovation_var mn (kf_cov x))). intros gain.
  rewrite <- gain_mix. f_equal. f_equal. cbn [mix q0]. rsimp. match goal with |- @eq _ ?a ?b => change (@eq R a b) end. ring.
Qed.
Lemma correct_cov : forall mn (x y : KF) (ox oy : R), kf_cov y = kf_cov x -> kf_cov (kf_correct (A := real_arith) mn y oy) = kf_cov (kf_correct (A := real_arith) mn x ox).
Proof. intros mn x y ox oy E. unfold kf_correct. cbn [kf_cov]. rewrite E. reflexivity. Qed.

Lemma update_mixed : forall a b w pn mn x y z (ox oy : R), mixed a b w x y z ->
  match kf_update (A := real_arith) pn mn x ox, kf_update (A := real_arith) pn mn y oy, kf_update (A := real_arith) pn mn z (a * ox + b * oy + w) with
  | Ret x', Ret y', Ret z' => mixed a b w x' y' z' /\ (0 < kf_iter x')%Z
  | UB e1, UB e2, UB e3 => e1 = e2 /\ e1 = e3
  | _, _, _ => False
  end.
Proof.
  intros a b w pn mn x y z ox oy M. pose proof M as (Cy & Iy & Cz & Iz & I0 & E1 & E2 & E3 & E0). unfold kf_update. rewrite Iy, Iz.
  destruct (Z.leb INT_MAX (kf_iter x)); [auto|]. destruct (Z.eqb (kf_iter x) 0) eqn:Z0.
  - split; [|cbn [kf_iter]; lia]. unfold mixed. cbn [kf_cov kf_iter kf_state q0 q1 q2 q3]. repeat split; auto; lia.
  - apply Z.eqb_neq in Z0. assert (SZ := mixed_state _ _ _ _ _ _ M ltac:(lia)).
    set (x1 := kf_predict pn (mkKF (kf_state x) (kf_cov x) (kf_iter x + 1))).
    set (y1 := kf_predict pn (mkKF (kf_state y) (kf_cov y) (kf_iter x + 1))).
    set (z1 := kf_predict pn (mkKF (kf_state z) (kf_cov z) (kf_iter x + 1))).
    assert (Cy1 : kf_cov y1 = kf_cov x1) by (unfold y1, x1, kf_predict; cbn [kf_cov]; rewrite Cy; reflexivity).
    assert (Cz1 : kf_cov z1 = kf_cov x1) by (unfold z1, x1, kf_predict; cbn [kf_cov]; rewrite Cz; reflexivity).
    assert (Sz1 : kf_state z1 = mix a b w (kf_state x1) (kf_state y1)) by (unfold z1, y1, x1, kf_predict; cbn [kf_state]; rewrite SZ; apply transition_mix).
    assert (Ix : kf_iter (kf_correct mn x1 ox) = (kf_iter x + 1)%Z) by reflexivity.
    assert (IIy : kf_iter (kf_correct mn y1 oy) = (kf_iter x + 1)%Z) by reflexivity.
    assert (IIz : kf_iter (kf_correct mn z1 (a * ox + b * oy + w)) = (kf_iter x + 1)%Z) by reflexivity.
    pose proof (correct_mixed a b w mn x1 y1 z1 ox oy Cy1 Cz1 Sz1) as SS. pose proof (correct_cov mn x1 y1 ox oy Cy1) as K1.
    pose proof (correct_cov mn x1 z1 ox (a * ox + b * oy + w) Cz1) as K2.
    revert Ix IIy IIz SS K1 K2. generalize (kf_correct mn x1 ox), (kf_correct mn y1 oy), (kf_correct mn z1 (a * ox + b * oy + w)). clear - I0.
    intros x2 y2 z2 Jx Jy Jz SS K1 K2. split; [|lia]. unfold mixed. rewrite K1, K2, Jy, Jz, Jx, SS. repeat split; try lia.
Qed.

Notation KP := (KPredictor (A := real_arith)).
Record kalike (m n : KP) : Prop := mkKalike {
  ka_par : k_params n = moved_kalman g (k_params m);
  ka_sam : k_sampling n = moved_sampling g (k_sampling m);
  ka_last : k_last n = option_map P (k_last m);
  ka_times : k_times n = map TT (k_times m);
  ka_x : mixed (s * g_cos g) (- (s * g_sin g * g_flip g)) (g_dx g) (k_x m) (k_y m) (k_x n);
  ka_y : mixed (s * g_sin g) (s * g_cos g * g_flip g) (g_dy g) (k_x m) (k_y m) (k_y n);
  ka_any : k_times m <> [] -> (0 < kf_iter (k_x m))%Z
}.
Lemma new_kalike : forall kp sp, kalike (kpred_new kp sp) (kpred_new (moved_kalman g kp) (moved_sampling g sp)).
Proof. intros. constructor; try reflexivity; cbn [kpred_new k_x k_y k_times]; try apply mixed_reset. intros H. destruct (H eq_refl). Qed.
Lemma reset_kalike : forall m n, kalike m n -> kalike (kpred_reset m) (kpred_reset n).
Proof. intros m n [H1 H2 H3 H4 H5 H6 H7]. constructor; cbn [kpred_reset k_params k_sampling k_x k_y k_times k_last]; auto; try apply mixed_reset. intros H. destruct (H eq_refl). Qed.
Lemma tl_map : forall {X Y} (f : X -> Y) l, tl (map f l) = map f (tl l).
Proof. intros X Y f [|x l]; reflexivity. Qed.
Lemma update_kalike : forall m n pos (t : D (Arith := real_arith)), kalike m n ->
  orel kalike (kpred_update m pos t) (kpred_update n (P pos) (TT t)).
Proof.
  intros m n pos t [H1 H2 H3 H4 H5 H6 H7]. unfold kpred_update. rewrite H1, H2. change (kp_process (moved_kalman g (k_params m))) with (kp_process (k_params m)).
  change (kp_measure (moved_kalman g (k_params m))) with (kp_measure (k_params m)). change (kp_max_times (moved_kalman g (k_params m))) with (kp_max_times (k_params m)).
  pose proof (update_mixed _ _ _ (kp_process (k_params m)) (kp_measure (k_params m)) _ _ _ (vx pos) (vy pos) H5) as UX.
  pose proof (update_mixed _ _ _ (kp_process (k_params m)) (kp_measure (k_params m)) _ _ _ (vx pos) (vy pos) H6) as UY.
  cbn [f2d real_arith].
  assert (EX : (vx (P pos) : R) = s * g_cos g * vx pos + - (s * g_sin g * g_flip g) * vy pos + g_dx g) by (unfold moved_pos, turned; cbn [vx vy]; ring).
  assert (EY : (vy (P pos) : R) = s * g_sin g * vx pos + s * g_cos g * g_flip g * vy pos + g_dy g) by (unfold moved_pos, turned; cbn [vx vy]; ring).
  rewrite <- EX in UX. rewrite <- EY in UY. clear EX EY.
  set (p1 := kp_process (k_params m)) in *. set (p2 := kp_measure (k_params m)) in *.
  destruct (kf_update p1 p2 (k_x m) (vx pos)) as [x'|e1|], (kf_update p1 p2 (k_y m) (vy pos)) as [y'|e2|]; try contradiction;
  destruct (kf_update p1 p2 (k_x n) (vx (P pos))) as [x''|e3|]; try contradiction;
  destruct (kf_update p1 p2 (k_y n) (vy (P pos))) as [y''|e4|]; try contradiction; cbn [obind orel].
  - constructor; cbn [k_params k_sampling k_x k_y k_times k_last option_map]; auto; try apply UX; try apply UY.
    + rewrite H4. change [TT t] with (map TT [t]). rewrite <- map_app. unfold size_gt. rewrite map_length.
      destruct (Z.ltb _ 0 || _); [apply tl_map|reflexivity].
    + intros _. apply UX.
  - destruct UX as [_ UX]. exact UX.
Qed.
Lemma stable_kalike : forall m n, kalike m n -> kpred_stable n = kpred_stable m.
Proof.
  intros m n [H1 H2 H3 H4 H5 H6 H7]. unfold kpred_stable. rewrite H1. destruct H5 as (_ & Iy & _ & Iz & _), H6 as (_ & _ & _ & Iw & _).
  rewrite Iz, Iw, Iy. reflexivity.
Qed.
Definition moved_est (e : KEst (A := real_arith)) : KEst :=
  mkKEst (A := real_arith) (P (ke_pos e)) (moved_vel g (ke_vel e)) (moved_acc g (ke_acc e)) (L (s / (k * k * k)) (ke_jerk e)).
Lemma last_map : forall {X Y} (f : X -> Y) l d, last (map f l) (f d) = f (last l d).
Proof. intros X Y f. induction l as [|x l IH]; intros d; [reflexivity|]. destruct l as [|y l]; [reflexivity|]. cbn [map] in *. exact (IH d). Qed.
Lemma L_weight : forall l v (x : R), vscale_assign (A := real_arith) (L l v) x = L l (vscale_assign (A := real_arith) v x).
Proof. intros. vec. Qed.
Lemma estimate_kalike : forall m n, kalike m n -> kpred_estimate n = option_map moved_est (kpred_estimate m).
Proof.
  intros m n KA. unfold kpred_estimate. rewrite (stable_kalike _ _ KA). pose proof KA as [H1 H2 H3 H4 H5 H6 H7].
  destruct (kpred_stable m); [|reflexivity]. rewrite H4. destruct (k_times m) as [|t0 ts] eqn:ET; [reflexivity|]. cbn [map option_map].
  assert (I : (0 < kf_iter (k_x m))%Z) by (apply H7; discriminate).
  rewrite (mixed_state _ _ _ _ _ _ H5 I), (mixed_state _ _ _ _ _ _ H6 I), H1. cbn [moved_kalman kp_acc_weight kp_jerk_weight].
  cbv zeta. f_equal. change (TT t0 :: map TT ts) with (map TT (t0 :: ts)). rewrite last_map, map_length.
  match goal with |- context [fdiv (d2f (dsub (TT ?a) (TT t0))) ?c] =>
    assert (ED : forall u x : R, fdiv (Arith := real_arith) (d2f (dsub (Arith := real_arith) (TT u) (TT t0))) x = k * fdiv (Arith := real_arith) (d2f (dsub (Arith := real_arith) u t0)) x)
      by (intros; rsimp; rewrite T_sub; unfold Rdiv; rring);
    rewrite !(ED a c); clear ED; set (dt := fdiv (Arith := real_arith) (d2f (dsub (Arith := real_arith) a t0)) c)
  end.
  assert (E2 : fmul (k * dt) (k * dt) = (k * k) * fmul (Arith := real_arith) dt dt) by (rsimp; rring).
  assert (E3 : fmul (fmul (k * dt) (k * dt)) (k * dt) = (k * k * k) * fmul (Arith := real_arith) (fmul (Arith := real_arith) dt dt) dt) by (rsimp; rring).
  rewrite E3, E2. unfold moved_est. cbn [ke_pos ke_vel ke_acc ke_jerk].
  assert (AT : forall c : V4 -> R, (forall a b w u v, c (mix a b w u v) = a * c u + b * c v) ->
    mkVec2 (d2f (c (mix (s * g_cos g) (- (s * g_sin g * g_flip g)) (g_dx g) (kf_state (k_x m)) (kf_state (k_y m))))) (d2f (c (mix (s * g_sin g) (s * g_cos g * g_flip g) (g_dy g) (kf_state (k_x m)) (kf_state (k_y m))))) =
    L s (mkVec2 (A := real_arith) (d2f (Arith := real_arith) (c (kf_state (k_x m)))) (d2f (Arith := real_arith) (c (kf_state (k_y m)))))).
  { intros c HC. rewrite !HC. apply vec_eq; unfold turned; cbn [vx vy d2f real_arith]; match goal with |- @eq _ ?a ?b => change (@eq R a b) end; ring. }
  rewrite (AT q1), (AT q2), (AT q3) by reflexivity. unfold moved_vel, moved_acc. rewrite !L_div_k, !L_weight. f_equal; try reflexivity.
  apply vec_eq; unfold moved_pos, turned; cbn [vx vy d2f real_arith mix q0]; match goal with |- @eq _ ?a ?b => change (@eq R a b) end; ring.
Qed.
Lemma cubic_moved : forall e (d : R), evaluate_cubic (moved_est e) (k * d) = moved_est (evaluate_cubic (A := real_arith) e d).
Proof.
  intros. unfold evaluate_cubic. cbn [moved_est ke_pos ke_vel ke_acc ke_jerk d2f real_arith].
  assert (E2 : fmul (k * d) (k * d) = (k * k) * fmul (Arith := real_arith) d d) by (rsimp; rring).
  assert (E3 : fmul (fmul (k * d) (k * d)) (k * d) = (k * k * k) * fmul (Arith := real_arith) (fmul (Arith := real_arith) d d) d) by (rsimp; rring).
  rewrite E3, E2. unfold moved_est. cbn [ke_pos ke_vel ke_acc ke_jerk]. unfold moved_vel, moved_acc. rewrite !L_scale_k, !L_div.
  rewrite (L_eq (k * (s / k)) s) by (field; exact kn). rewrite (L_eq (k * k * (s / (k * k))) s) by (field; exact kn).
  rewrite (L_eq (k * k * k * (s / (k * k * k))) s) by (field; exact kn). rewrite (L_eq (k * (s / (k * k))) (s / k)) by (field; exact kn).
  rewrite (L_eq (k * k * (s / (k * k * k))) (s / k)) by (field; exact kn). rewrite (L_eq (k * (s / (k * k * k))) (s / (k * k))) by (field; exact kn).
  rewrite !P_add, !L_add. reflexivity.
Qed.
Lemma prediction_moved : forall q e (t d : R), cubic_prediction (moved_est e) (TT t) (k * d) q = map moved_tip (cubic_prediction (A := real_arith) e t d q).
Proof.
  induction q as [|q IH]; intros; cbn [cubic_prediction map]; [reflexivity|]. rewrite cubic_moved.
  assert (E : dadd (TT t) (k * d) = TT (dadd (Arith := real_arith) t d)) by (rsimp; unfold moved_time; ring). rewrite E, IH. reflexivity.
Qed.
Lemma points_moved : s = 1 -> forall t e kp (d : R),
  connector_points (moved_tip t) (moved_est e) (moved_kalman g kp) (k * d) = connector_points (A := real_arith) t e kp d.
Proof.
  intros S1 t e kp d. unfold connector_points. cbn [moved_tip moved_est moved_kalman t_pos t_vel ke_pos ke_vel kp_catchup].
  rewrite P_dist. unfold moved_vel. rewrite !L_mag by (pose proof vs_pos; lra). rewrite !fmaxs_scale by exact vs_pos.
  rewrite S1, Rmult_1_l. do 3 f_equal. cbn [d2f f2d real_arith ddiv fdiv].
  assert (E : forall x m d : R, x / (1 / k * m) / (k * d) = x / m / d).
  { intros. rewrite <- (Rdiv_scale k (x / m) d0 k_pos). f_equal. unfold Rdiv. rewrite !Rinv_mult, !Rinv_inv, Rinv_1. ring. }
  apply E.
Qed.
Lemma connector_moved : forall t e (d : R) n i, connector_tip (moved_tip t) (moved_est e) (k * d) n i = moved_tip (connector_tip (A := real_arith) t e d n i).
Proof.
  intros. unfold connector_tip. cbn [moved_tip moved_est t_pos t_vel t_time ke_pos ke_vel d2f real_arith].
  generalize (fdiv (Arith := real_arith) (fofZ (Arith := real_arith) i) (fofZ (Arith := real_arith) n)). intros x.
  set (a := connector_a (t_pos t) (t_vel t) (ke_pos e) (ke_vel e) d). set (b := connector_b (t_pos t) (t_vel t) (ke_pos e) (ke_vel e) d).
  assert (EA : connector_a (P (t_pos t)) (moved_vel g (t_vel t)) (P (ke_pos e)) (moved_vel g (ke_vel e)) (k * d) = L s a).
  { unfold a, connector_a, f2. apply vec_eq; unfold moved_vel, moved_pos, turned, vadd, vsub, vscale; cbn [vx vy]; rsimp;
      match goal with |- @eq _ ?a ?b => change (@eq R a b) end; field; exact kn. }
  assert (EB : connector_b (P (t_pos t)) (moved_vel g (t_vel t)) (P (ke_pos e)) (moved_vel g (ke_vel e)) (k * d) = L s b).
  { unfold b, connector_b, f2. apply vec_eq; unfold moved_vel, moved_pos, turned, vadd, vsub, vscale; cbn [vx vy]; rsimp;
      match goal with |- @eq _ ?a ?b => change (@eq R a b) end; field; exact kn. }
  rewrite EA, EB. clearbody a b. clear EA EB. unfold moved_vel. rewrite (L_scale_k (s / k) k d (t_vel t)), (L_eq (k * (s / k)) s) by (field; exact kn).
  assert (E2 : fmul (k * d) (k * d) = (k * k) * fmul (Arith := real_arith) d d) by (rsimp; rring). rewrite E2.
  rewrite !L_scale, !L_add, !L_div_k, P_add'. unfold moved_tip. cbn [t_pos t_vel t_acc t_time]. f_equal.
  unfold moved_time. rsimp. rring.
Qed.
Lemma conn_moved : s = 1 -> forall t e kp (d : R),
  cubic_connector (moved_tip t) (moved_est e) (moved_kalman g kp) (k * d) = omap (map moved_tip) (cubic_connector (A := real_arith) t e kp d).
Proof.
  intros S1 t e kp d. unfold cubic_connector. rewrite (points_moved S1). destruct (connector_points t e kp d) as [n|]; cbn [to_int]; [|reflexivity].
  unfold omap. cbn [obind]. f_equal. rewrite map_map. apply map_ext. intros i. rewrite <- connector_moved. f_equal. rsimp. rring.
Qed.
Lemma confidence_kalike : forall m n pos e, kalike m n -> kpred_confidence n (P pos) (moved_est e) = kpred_confidence m pos e.
Proof.
  intros m n pos e KA. pose proof KA as [H1 H2 H3 H4 H5 H6 H7]. unfold kpred_confidence. rewrite H1.
  cbn [moved_kalman kp_conf kp_interval moved_confidence cp_samples cp_max_dist cp_min_speed cp_max_speed cp_max_dev cp_baseline].
  rewrite cubic_moved. set (e' := evaluate_cubic e (kp_interval (k_params m))).
  change (ke_pos (moved_est e)) with (P (ke_pos e)). change (ke_pos (moved_est e')) with (P (ke_pos e')). change (ke_vel (moved_est e)) with (moved_vel g (ke_vel e)).
  cbn [d2f real_arith]. unfold moved_vel. rewrite L_scale_k, (L_eq (k * (s / k)) s) by (field; exact kn). rewrite P_add, !P_dist.
  destruct H5 as (_ & _ & _ & -> & _).
  assert (N0 : forall x y : R, normalize01 (A := real_arith) f0 (s * x) (s * y) = normalize01 (A := real_arith) f0 x y).
  { intros x y. rewrite <- (normalize01_scale s (f0 (A := real_arith)) x y s_pos). f_equal. unfold f0. cbn [fofZ real_arith]. symmetry. apply Rmult_0_r. }
  assert (ND : forall lo hi x y : R, normalize01 (A := real_arith) (s / k * lo) (s / k * hi) (fdiv (Arith := real_arith) (s * x) (k * y)) = normalize01 (A := real_arith) lo hi (fdiv (Arith := real_arith) x y)).
  { intros lo hi x y. rewrite <- (normalize01_scale (s / k) lo hi (fdiv (Arith := real_arith) x y) vs_pos). f_equal. cbn [fdiv real_arith]. unfold Rdiv. rewrite Rinv_mult. rring. }
  rewrite !N0, ND. reflexivity.
Qed.
Lemma number_kalike : forall m n pos e, kalike m n -> kpred_number_of_points n (P pos) (moved_est e) = kpred_number_of_points m pos e.
Proof.
  intros m n pos e KA. unfold kpred_number_of_points. rewrite (confidence_kalike m n pos e KA). pose proof KA as [H1 H2 H3 H4 H5 H6 H7]. rewrite H1, H2.
  cbn [moved_kalman kp_interval moved_sampling sp_rate]. do 4 f_equal. rsimp. match goal with |- @eq _ ?a ?b => change (@eq R a b) end. field. exact kn.
Qed.
Lemma predict_kalike : s = 1 -> forall m n t, kalike m n -> kpred_predict n (moved_tip t) = omap (map moved_tip) (kpred_predict m t).
Proof.
  intros S1 m n t KA. pose proof KA as [H1 H2 H3 H4 H5 H6 H7]. unfold kpred_predict. rewrite (estimate_kalike m n KA), H3.
  destruct (kpred_estimate m) as [e|]; cbn [option_map]; [|reflexivity]. destruct (k_last m) as [pos|]; cbn [option_map]; [|reflexivity].
  rewrite (number_kalike m n pos e KA), H1, H2, rate_moved, (conn_moved S1).
  destruct (cubic_connector t e (k_params m) _) as [cs| |]; cbn [omap obind]; try reflexivity.
  rewrite back_map. assert (E : match option_map moved_tip (back cs) with Some t0 => t_time t0 | None => t_time (moved_tip t) end =
    TT (match back cs with Some t0 => t_time t0 | None => t_time t end)) by (destruct (back cs); reflexivity). rewrite E.
  destruct (kpred_number_of_points m pos e) as [q|]; cbn [to_int obind]; [|reflexivity]. unfold omap. cbn [obind]. rewrite prediction_moved, map_app. reflexivity.
Qed.

(** *** Validation *)
Lemma gt0_scale : forall (l x : R) lab, 0 < l -> validate_gt0_f (A := real_arith) (l * x) lab = validate_gt0_f (A := real_arith) x lab.
Proof. intros l x lab H. unfold validate_gt0_f, validate_finite_f, f0. rsimp. rewrite Rleb_0scale by exact H. reflexivity. Qed.
Lemma gt0d_scale : forall (l x : R) lab, 0 < l -> validate_gt0_d (A := real_arith) (l * x) lab = validate_gt0_d (A := real_arith) x lab.
Proof. intros l x lab H. unfold validate_gt0_d, validate_finite_d, d0. rsimp. rewrite Rleb_0scale by exact H. reflexivity. Qed.
Lemma ge0_scale : forall (l x : R) lab, 0 < l -> validate_ge0_f (A := real_arith) (l * x) lab = validate_ge0_f (A := real_arith) x lab.
Proof. intros l x lab H. unfold validate_ge0_f, validate_finite_f, f0. rsimp. rewrite Rltb_0scale by exact H. reflexivity. Qed.
Lemma ge0d_scale : forall (l x : R) lab, 0 < l -> validate_ge0_d (A := real_arith) (l * x) lab = validate_ge0_d (A := real_arith) x lab.
Proof. intros l x lab H. unfold validate_ge0_d, validate_finite_d, d0. rsimp. rewrite Rltb_0scale by exact H. reflexivity. Qed.
Lemma div_k : forall x : R, x / k = / k * x.
Proof. intros. unfold Rdiv. apply Rmult_comm. Qed.
Lemma valid_moved : forall p, movable g (CReset p) -> validate_params (moved_params g p) = validate_params p.
Proof.
  intros p [W _]. unfold validate_params. cbn [moved_params p_wobble p_position p_sampling p_stylus p_prediction].
  change (lp_enabled (pp_loop (moved_position g (p_position p)))) with (lp_enabled (pp_loop (p_position p))).
  change (sy_normal (moved_stylus g (p_stylus p))) with (sy_normal (p_stylus p)).
  assert (KI : 0 < / k) by (apply Rinv_0_lt_compat; exact k_pos).
  assert (E1 : validate_wobble (moved_wobble g (p_wobble p)) = validate_wobble (p_wobble p)).
  { unfold validate_wobble. cbn [moved_wobble wp_enabled wp_timeout wp_floor wp_ceiling]. rewrite ge0d_scale, ge0_scale by (exact k_pos || exact vs_pos).
    cbn [fltb real_arith]. rewrite Rltb_scale by exact vs_pos. reflexivity. }
  assert (E2 : validate_position (moved_position g (p_position p)) = validate_position (p_position p)).
  { unfold validate_position. cbn [moved_position pp_spring pp_drag pp_loop]. rewrite div_k, !gt0_scale by (exact KI || (apply Rmult_lt_0_compat; exact k_pos)).
    f_equal. unfold validate_loop. cbn [moved_loop lp_enabled lp_speed_lower lp_speed_upper lp_strength_lower lp_strength_upper lp_window lp_min_samples].
    destruct (lp_enabled (pp_loop (p_position p))) eqn:EN; cbn [negb]; [|reflexivity]. destruct (W eq_refl) as [W1 W2].
    unfold f0, f1, d0, kMaxSamplingWindow. cbn [fltb dltb dleb fofZ dofZ real_arith].
    rewrite Rltb_scale, Rltb_0scale, Rleb_0scale by (exact vs_pos || exact k_pos).
    rewrite (proj2 (Rltb_false 10000 (k * lp_window (pp_loop (p_position p)))) W2), (proj2 (Rltb_false 10000 (lp_window (pp_loop (p_position p)))) W1). reflexivity. }
  assert (E3 : validate_sampling (moved_sampling g (p_sampling p)) = validate_sampling (p_sampling p)).
  { unfold validate_sampling. cbn [moved_sampling sp_rate sp_stop sp_max_iter sp_max_outputs sp_max_angle]. rewrite div_k, gt0d_scale, gt0_scale by (exact KI || exact s_pos). reflexivity. }
  assert (E4 : validate_stylus (moved_stylus g (p_stylus p)) = validate_stylus (p_stylus p)).
  { unfold validate_stylus. cbn [moved_stylus sy_normal sy_max_samples sy_min_samples sy_min_duration]. rewrite gt0d_scale by exact k_pos. reflexivity. }
  assert (E5 : validate_prediction (moved_prediction g (p_prediction p)) = validate_prediction (p_prediction p)).
  { destruct (p_prediction p) as [|kp|]; cbn [moved_prediction validate_prediction]; try reflexivity. unfold validate_kalman.
    cbn [moved_kalman kp_process kp_measure kp_min_stable kp_max_times kp_catchup kp_acc_weight kp_jerk_weight kp_interval kp_conf moved_confidence cp_samples cp_max_dist cp_min_speed cp_max_speed cp_max_dev cp_baseline].
    rewrite gt0d_scale, !gt0_scale, ge0_scale by (exact k_pos || exact vs_pos || exact s_pos). cbn [fltb real_arith]. rewrite Rltb_scale by exact vs_pos. reflexivity. }
  rewrite E1, E2, E3, E4, E5. reflexivity.
Qed.
Lemma valid_input_moved : forall i, validate_input (moved_input g i) = validate_input i.
Proof. intros. reflexivity. Qed.
Lemma input_eqb_moved : forall a b, input_eqb (moved_input g a) (moved_input g b) = input_eqb a b.
Proof. intros. unfold input_eqb. cbn [moved_input i_event i_pos i_time i_pressure i_tilt i_orient]. rewrite P_veqb. cbn [deqb real_arith]. rewrite T_eqb. reflexivity. Qed.

(** *** Predictors *)
Inductive palike : Predictor (A := real_arith) -> Predictor (A := real_arith) -> Prop :=
| PAEnd pp sp l : palike (PStrokeEnd pp sp l) (PStrokeEnd (moved_position g pp) (moved_sampling g sp) (option_map P l))
| PAKal m n : s = 1 -> kalike m n -> palike (PKal m) (PKal n).
Definition opalike (a b : option (Predictor (A := real_arith))) : Prop :=
  match a, b with Some x, Some y => palike x y | None, None => True | _, _ => False end.
Lemma pred_reset_alike : forall a b, palike a b -> palike (pred_reset a) (pred_reset b).
Proof. intros a b [pp sp l|m n S1 H]; cbn [pred_reset]; [exact (PAEnd pp sp None)|]. constructor; [exact S1|apply reset_kalike; exact H]. Qed.
Lemma pred_update_alike : forall a b pos (t : D (Arith := real_arith)), palike a b -> orel palike (pred_update a pos t) (pred_update b (P pos) (TT t)).
Proof.
  intros a b pos t [pp sp l|m n S1 H]; cbn [pred_update orel]; [exact (PAEnd pp sp (Some pos))|].
  pose proof (update_kalike m n pos t H) as U. destruct (kpred_update m pos t), (kpred_update n (P pos) (TT t)); cbn [orel obind] in *; try contradiction; auto.
  constructor; [exact S1|exact U].
Qed.
Lemma opt_update_alike : forall a b pos (t : D (Arith := real_arith)), opalike a b -> orel opalike
  match a with None => Ret None | Some pr => let* pr' := pred_update pr pos t in Ret (Some pr') end
  match b with None => Ret None | Some pr => let* pr' := pred_update pr (P pos) (TT t) in Ret (Some pr') end.
Proof.
  intros [a|] [b|] pos t H; cbn [opalike] in H; try contradiction; [|exact I].
  pose proof (pred_update_alike a b pos t H) as U. destruct (pred_update a pos t), (pred_update b (P pos) (TT t)); cbn [orel obind] in *; try contradiction; auto.
Qed.
Lemma pred_construct_alike : forall a b t, palike a b -> pred_construct b (moved_tip t) = omap (map moved_tip) (pred_construct a t).
Proof.
  intros a b t [pp sp l|m n S1 H]; cbn [pred_construct]; [|apply predict_kalike; assumption].
  destruct l as [l|]; cbn [option_map]; [|reflexivity]. rewrite rate_moved. change (sp_max_iter (moved_sampling g sp)) with (sp_max_iter sp).
  change (sp_stop (moved_sampling g sp)) with (s * sp_stop sp). rewrite end_moved. reflexivity.
Qed.
Lemma make_alike : forall p, movable g (CReset p) -> opalike (make_predictor p) (make_predictor (moved_params g p)).
Proof.
  intros p (_ & K & _). unfold make_predictor. cbn [moved_params p_prediction p_sampling p_position].
  destruct (p_prediction p) as [|kp|] eqn:E; cbn [moved_prediction opalike]; [exact (PAEnd _ _ None)| |exact I].
  constructor; [exact (K kp eq_refl)|apply new_kalike].
Qed.

(** *** Modelers *)
Definition moved_last (l : LastInput (A := real_arith)) : LastInput := mkLast (A := real_arith) (moved_input g (li_input l)) (P (li_corrected l)).
Notation M := (Modeler (A := real_arith)).
Definition live (m : M) : Prop := m_last m <> None \/ m_save_active m = true /\ m_saved_last m <> None.
Record alike (m n : M) : Prop := mkAlike {
  al_pred : opalike (m_predictor m) (m_predictor n);
  al_par : m_params n = option_map (moved_params g) (m_params m);
  al_w : w_state (m_wobble n) = moved_wst (w_state (m_wobble m));
  al_ws : w_saved (m_wobble n) = moved_wst (w_saved (m_wobble m));
  al_wa : w_save_active (m_wobble n) = w_save_active (m_wobble m);
  al_p : live m -> pm_state (m_pos n) = moved_tip (pm_state (m_pos m));
  al_ps : m_save_active m = true -> m_saved_last m <> None -> pm_saved (m_pos n) = option_map moved_tip (pm_saved (m_pos m));
  al_s : sm_state (m_stylus n) = moved_sst (sm_state (m_stylus m));
  al_ss : sm_saved (m_stylus n) = moved_sst (sm_saved (m_stylus m));
  al_sa : sm_save_active (m_stylus n) = sm_save_active (m_stylus m);
  al_l : l_samples (m_loop n) = map moved_speed (l_samples (m_loop m));
  al_ls : l_saved (m_loop n) = map moved_speed (l_saved (m_loop m));
  al_la : l_save_active (m_loop n) = l_save_active (m_loop m);
  al_last : m_last n = option_map moved_last (m_last m);
  al_sp : opalike (m_saved_predictor m) (m_saved_predictor n);
  al_sl : m_saved_last n = option_map moved_last (m_saved_last m);
  al_act : m_save_active n = m_save_active m;
  al_flat : g_mirror g = true -> forall p, m_params m = Some p -> sy_normal (p_stylus p) = false
}.
Lemma wst0_moved : forall w, w_samples w = [] -> w_wsum w = vzero -> w_dsum w = 0 -> w_tsum w = 0 -> moved_wst w = w.
Proof.
  intros [a b c d]; cbn. intros -> -> -> ->. unfold moved_wst. cbn [w_samples w_wsum w_dsum w_tsum map]. f_equal; try apply Rmult_0_r.
  rewrite L_zero. apply vec_eq; unfold vadd, vscale, vzero, f0; rsimp; match goal with |- @eq _ ?a ?b => change (@eq R a b) end; ring.
Qed.
Lemma some_inj : forall {T} (a b : T), Some a = Some b -> a = b.
Proof. intros T a b H. injection H as ->. reflexivity. Qed.
Lemma alike0 : alike modeler0 modeler0.
Proof.
  constructor; try reflexivity; cbn [modeler0 m_predictor m_saved_predictor opalike m_last m_save_active m_saved_last m_wobble]; try exact I; try (symmetry; apply wst0_moved; reflexivity).
  - intros [H|[H _]]; [destruct (H eq_refl)|discriminate H].
  - intros _ p H. discriminate H.
Qed.

Definition ar (x y : upd_result (A := real_arith)) : Prop :=
  let '(m, st, r) := x in let '(n, st', q) := y in alike m n /\ st' = st /\ q = map (moved_result g) r.
Lemma parts_moved : forall m n p last, alike m n -> cons m -> cons n -> m_params m = Some p -> m_last m = Some last ->
  m_wobble n = moved_w (m_wobble m) /\ pm_params (m_pos n) = moved_position g (p_position p) /\ pm_state (m_pos n) = moved_tip (pm_state (m_pos m)) /\
  m_stylus n = moved_sm (m_stylus m) /\ m_loop n = moved_lm (m_loop m) /\ comp_params p m.
Proof.
  intros m n p last AL CM CN MP ML. pose proof AL as [A1 A2 A3 A4 A5 A6 A7 A8 A9 A10 A11 A12 A13 A14 A15 A16 A17 A18].
  rewrite MP in A2. rewrite ML in A14. cbn [option_map] in A2, A14. destruct (CM p MP ltac:(left; congruence)) as (K1 & K2 & K3 & K4).
  destruct (CN _ A2 ltac:(left; congruence)) as (Q1 & Q2 & Q3 & Q4). cbn [moved_params p_wobble p_position p_stylus] in *.
  split; [|split; [exact Q2|split; [apply A6; left; congruence|split; [|split; [|split; [exact K1|split; [exact K2|split; [exact K3|exact K4]]]]]]]].
  - revert A3 A4 A5 Q1. rewrite <- K1. destruct (m_wobble n). cbn. intros -> -> -> ->. reflexivity.
  - revert A8 A9 A10 Q3. rewrite <- K3. destruct (m_stylus n). cbn. intros -> -> -> ->. reflexivity.
  - revert A11 A12 A13 Q4. change (pp_loop (moved_position g (p_position p))) with (moved_loop g (pp_loop (p_position p))). rewrite <- K4. destruct (m_loop n). cbn. intros -> -> -> ->. reflexivity.
Qed.

Ltac flds := cbn [m_predictor m_params m_wobble m_pos m_stylus m_loop m_buffer m_last m_saved_predictor m_saved_last m_save_active].
Ltac nope2 := solve [cbn in *; auto | cbn in *; contradiction | cbn in *; congruence].

Lemma down_alike : forall m n p i rs, alike m n ->
  orel ar (process_down m p i rs) (process_down n (moved_params g p) (moved_input g i) (map (moved_result g) rs)).
Proof.
  intros m n p i rs AL. pose proof AL as [A1 A2 A3 A4 A5 A6 A7 A8 A9 A10 A11 A12 A13 A14 A15 A16 A17 A18].
  unfold process_down. rewrite A14. destruct (m_last m) as [l|] eqn:ML; cbn [option_map]; [cbn [orel ar]; auto|].
  cbn [moved_input i_pos i_time i_pressure i_tilt i_orient moved_params p_stylus p_wobble p_position].
  assert (ES : sm_state (stylus_reset (m_stylus n) (moved_stylus g (p_stylus p))) = moved_sst (sm_state (stylus_reset (m_stylus m) (p_stylus p)))) by reflexivity.
  assert (EM : stylus_reset (m_stylus n) (moved_stylus g (p_stylus p)) = moved_sm (stylus_reset (m_stylus m) (p_stylus p))).
  { unfold stylus_reset, moved_sm. cbn [sm_state sm_saved sm_save_active sm_params]. rewrite A9. reflexivity. }
  rewrite EM, stylus_moved. clear ES EM. destruct (stylus_update _ _ _ _ _ _) as [sm| |]; unfold omap; cbn [obind]; try nope2.
  assert (OP : opalike (option_map pred_reset (m_predictor m)) (option_map pred_reset (m_predictor n))).
  { destruct (m_predictor m), (m_predictor n); cbn [opalike option_map] in *; try contradiction; auto. apply pred_reset_alike. exact A1. }
  pose proof (opt_update_alike _ _ (i_pos i) (i_time i) OP) as U. clear OP.
  assert (E1 : match option_map pred_reset (m_predictor m) with None => Ret None | Some pr => let* pr' := pred_update pr (i_pos i) (i_time i) in Ret (Some pr') end =
    match m_predictor m with None => Ret None | Some pr => let* pr' := pred_update (pred_reset pr) (i_pos i) (i_time i) in Ret (Some pr') end) by (destruct (m_predictor m); reflexivity).
  assert (E2 : match option_map pred_reset (m_predictor n) with None => Ret None | Some pr => let* pr' := pred_update pr (P (i_pos i)) (TT (i_time i)) in Ret (Some pr') end =
    match m_predictor n with None => Ret None | Some pr => let* pr' := pred_update (pred_reset pr) (P (i_pos i)) (TT (i_time i)) in Ret (Some pr') end) by (destruct (m_predictor n); reflexivity).
  rewrite E1, E2 in U. clear E1 E2.
  destruct (match m_predictor m with None => _ | Some _ => _ end) as [x| |], (match m_predictor n with None => _ | Some _ => _ end) as [y| |]; cbn [orel obind] in *; try contradiction; auto.
  cbn [ar]. split; [|split; [reflexivity|]].
  - constructor; flds; auto; try reflexivity.
    + unfold wobble_reset, moved_wst. cbn [w_state w_samples w_wsum w_dsum w_tsum map]. f_equal.
      * f_equal. unfold moved_ws. cbn [ws_pos ws_wpos ws_dist ws_dur ws_time]. unfold f0, d0. cbn [fofZ dofZ real_arith]. rewrite !Rmult_0_r, L_zero.
        f_equal. apply vec_eq; unfold vadd, vscale, vzero, f0; rsimp; match goal with |- @eq _ ?a ?b => change (@eq R a b) end; ring.
      * rewrite L_zero. apply vec_eq; unfold vadd, vscale, vzero, f0; rsimp; match goal with |- @eq _ ?a ?b => change (@eq R a b) end; ring.
      * unfold f0. cbn [fofZ real_arith]. symmetry. apply Rmult_0_r.
      * unfold f0. cbn [fofZ real_arith]. symmetry. apply Rmult_0_r.
    + intros _. unfold pos_reset, moved_tip. cbn [pm_state t_pos t_vel t_acc t_time]. unfold moved_vel, moved_acc. rewrite !L_zero. reflexivity.
  - rewrite map_app. f_equal. cbn [map]. f_equal. unfold moved_result. cbn [r_pos r_vel r_acc r_time r_pressure r_tilt r_orient pos_reset pm_state t_pos t_vel t_acc t_time].
    unfold moved_vel, moved_acc. rewrite !L_zero. reflexivity.
Qed.

Lemma keep_alike : forall m n st rs, alike m n -> orel ar (Ret (m, st, rs)) (Ret (n, st, map (moved_result g) rs)).
Proof. intros. cbn. auto. Qed.

Lemma stylus_kept : forall m sm c (t : D (Arith := real_arith)) a b d, stylus_update (m_stylus m) c t a b d = Ret sm ->
  sm_saved sm = sm_saved (m_stylus m) /\ sm_save_active sm = sm_save_active (m_stylus m).
Proof. intros. eapply stylus_update_saved. eassumption. Qed.
Lemma wobble_kept : forall w pos (t : D (Arith := real_arith)) w' c, wobble_update (A := real_arith) w pos t = Ret (w', c) -> w_saved w' = w_saved w /\ w_save_active w' = w_save_active w.
Proof.
  intros w pos t w' c H. unfold wobble_update in H. destruct (negb _); [injection H as <- <-; auto|]. destruct (back _); [|discriminate H].
  cbv zeta in H. destruct (wobble_trim _ _ _ _ _) as [st| |]; cbn [obind] in H; try discriminate H. destruct (feqb _ _); injection H as <- <-; auto.
Qed.

Lemma move_alike : forall fuel m n p i rs, alike m n -> good m -> cons m -> cons n -> m_params m = Some p ->
  orel ar (process_move fuel m p i rs) (process_move fuel n (moved_params g p) (moved_input g i) (map (moved_result g) rs)).
Proof.
  intros fuel m n p i rs AL GM CM CN MP. pose proof AL as [A1 A2 A3 A4 A5 A6 A7 A8 A9 A10 A11 A12 A13 A14 A15 A16 A17 A18].
  unfold process_move. rewrite A14. destruct (m_last m) as [l|] eqn:ML; cbn [option_map]; [|apply keep_alike; exact AL].
  destruct (parts_moved m n p l AL CM CN MP ML) as (B1 & B2 & B3 & B4 & B5 & (P1 & P2 & P3 & P4)).
  rewrite B1, B3, B4, B5. cbn [moved_input moved_last i_pos i_time i_pressure i_tilt i_orient li_input li_corrected moved_params p_sampling p_position].
  rewrite wobble_moved. destruct (wobble_update (m_wobble m) (i_pos i) (i_time i)) as [[w c]| |] eqn:WU; unfold omap at 1; cbn [obind moved_wp fst snd]; try nope2.
  rewrite stylus_moved. destruct (stylus_update (m_stylus m) c (i_time i) _ _ _) as [sm| |] eqn:SU; unfold omap at 1; cbn [obind]; try nope2.
  change (mkInput (A := real_arith) (i_event i) (P (i_pos i)) (TT (i_time i)) (i_pressure i) (i_tilt i) (i_orient i)) with (moved_input g i).
  rewrite steps_moved. destruct (number_of_steps _ _ _ _ _) as [[q|e]| |]; cbn [obind]; try nope2.
  - rewrite B2, P2, along_moved. destruct (update_along_path _ _ _ _ _ _ _) as [[tip tips]| |]; unfold omap at 1; cbn [obind moved_tips fst snd]; try nope2.
    pose proof (opt_update_alike _ _ c (i_time i) A1) as U.
    destruct (match m_predictor m with None => _ | Some _ => _ end) as [x| |], (match m_predictor n with None => _ | Some _ => _ end) as [y| |]; cbn [orel obind] in *; try contradiction; auto.
    assert (FL : g_mirror g = true -> sy_normal (sm_params sm) = false) by (intros GM'; destruct (stylus_update_params _ _ _ _ _ _ _ SU) as (SP & _); rewrite SP, P3; exact (A18 GM' p MP)).
  assert (NE : lp_enabled (l_params (m_loop m)) = true -> s_raw (sm_state sm) <> []).
    { rewrite P4. intros EN. eapply stylus_update_nonempty; [| |exact SU]; rewrite P3; [exact (stylus_valid m p GM MP)|].
      apply mitigation_normal; [exact (g_valid _ GM p MP)|exact EN]. }
    rewrite (model_stylus_moved fuel tips sm (m_loop m) (i_time i) FL NE).
    destruct (model_stylus fuel tips sm (m_loop m) (i_time i)) as [[lm out]| |] eqn:MS; unfold omap; cbn [obind moved_out fst snd orel]; auto.
    cbn [ar]. split; [|split; [reflexivity|symmetry; apply map_app]].
    constructor; flds; auto; try reflexivity.
  - cbn [orel ar]. split; [|auto]. constructor; flds; auto; try reflexivity.
Qed.

Lemma up_alike : forall fuel m n p i rs, alike m n -> good m -> cons m -> cons n -> m_params m = Some p ->
  orel ar (process_up fuel m p i rs) (process_up fuel n (moved_params g p) (moved_input g i) (map (moved_result g) rs)).
Proof.
  intros fuel m n p i rs AL GM CM CN MP. pose proof AL as [A1 A2 A3 A4 A5 A6 A7 A8 A9 A10 A11 A12 A13 A14 A15 A16 A17 A18].
  unfold process_up. rewrite A14. destruct (m_last m) as [l|] eqn:ML; cbn [option_map]; [|apply keep_alike; exact AL].
  destruct (parts_moved m n p l AL CM CN MP ML) as (B1 & B2 & B3 & B4 & B5 & (P1 & P2 & P3 & P4)).
  rewrite B3, B4, B5. cbn [moved_last li_input li_corrected moved_params p_sampling p_position].
  rewrite steps_moved. destruct (number_of_steps _ _ _ _ _) as [[q|e]| |]; cbn [obind]; try nope2.
  cbn [moved_input i_pos i_time i_pressure i_tilt i_orient].
  rewrite B2, P2, along_moved. destruct (update_along_path _ _ _ _ _ _ _) as [[tip tips]| |]; unfold omap at 1; cbn [obind moved_tips fst snd]; try nope2.
  rewrite rate_moved. change (sp_max_iter (moved_sampling g (p_sampling p))) with (sp_max_iter (p_sampling p)).
  change (sp_stop (moved_sampling g (p_sampling p))) with (s * sp_stop (p_sampling p)). rewrite end_moved.
  destruct (model_end_of_stroke (p_position p) tip _ _ _ _) as [tip2 tips2]. unfold moved_tips at 1. cbn [fst snd].
  rewrite stylus_moved. destruct (stylus_update (m_stylus m) (i_pos i) (i_time i) _ _ _) as [sm| |] eqn:SU; unfold omap at 1; cbn [obind]; try nope2.
  assert (FL : g_mirror g = true -> sy_normal (sm_params sm) = false) by (intros GM'; destruct (stylus_update_params _ _ _ _ _ _ _ SU) as (SP & _); rewrite SP, P3; exact (A18 GM' p MP)).
  assert (NE : lp_enabled (l_params (m_loop m)) = true -> s_raw (sm_state sm) <> []).
  { rewrite P4. intros EN. eapply stylus_update_nonempty; [| |exact SU]; rewrite P3; [exact (stylus_valid m p GM MP)|].
    apply mitigation_normal; [exact (g_valid _ GM p MP)|exact EN]. }
  assert (ET : match map moved_tip tips ++ map moved_tip tips2 with [] => [moved_tip tip2] | t :: l0 => t :: l0 end =
    map moved_tip (match tips ++ tips2 with [] => [tip2] | t :: l0 => t :: l0 end)).
  { rewrite <- map_app. destruct (tips ++ tips2); reflexivity. }
  rewrite ET. generalize (match tips ++ tips2 with [] => [tip2] | t :: l0 => t :: l0 end). intros ts. clear ET.
  rewrite (model_stylus_moved fuel ts sm (m_loop m) (i_time (li_input l)) FL NE).
  destruct (model_stylus fuel ts sm (m_loop m) (i_time (li_input l))) as [[lm out]| |] eqn:MS; unfold omap; cbn [obind moved_out fst snd orel]; auto.
  cbn [ar]. split; [|split; [reflexivity|symmetry; apply map_app]].
  constructor; flds; auto; try reflexivity.
Qed.

Lemma update_alike : forall fuel m n i rs, alike m n -> good m -> cons m -> cons n ->
  orel ar (update fuel m i rs) (update fuel n (moved_input g i) (map (moved_result g) rs)).
Proof.
  intros fuel m n i rs AL GM CM CN. unfold update. rewrite (al_par _ _ AL). destruct (m_params m) as [p|] eqn:MP; cbn [option_map]; [|apply keep_alike; exact AL].
  rewrite valid_input_moved. destruct (validate_input i); try (apply keep_alike; exact AL). rewrite (al_last _ _ AL).
  assert (K : orel ar
    match i_event i with
    | EDown => process_down m p i rs | EMove => process_move fuel m p i rs
    | EUp => process_up fuel m p i rs | EOther _ => Ret (m, InvalidArgument msg_event, rs) end
    match i_event (moved_input g i) with
    | EDown => process_down n (moved_params g p) (moved_input g i) (map (moved_result g) rs)
    | EMove => process_move fuel n (moved_params g p) (moved_input g i) (map (moved_result g) rs)
    | EUp => process_up fuel n (moved_params g p) (moved_input g i) (map (moved_result g) rs)
    | EOther _ => Ret (n, InvalidArgument msg_event, map (moved_result g) rs) end).
  { change (i_event (moved_input g i)) with (i_event i). destruct (i_event i); [apply down_alike|apply move_alike|apply up_alike|apply keep_alike]; assumption. }
  destruct (m_last m) as [l|]; cbn [option_map]; [|exact K]. change (li_input (moved_last l)) with (moved_input g (li_input l)). rewrite input_eqb_moved.
  destruct (input_eqb _ _); [apply keep_alike; exact AL|]. change (i_time (moved_input g i)) with (TT (i_time i)).
  change (i_time (moved_input g (li_input l))) with (TT (i_time (li_input l))). cbn [dltb real_arith]. rewrite T_ltb.
  destruct (Rltb _ _); [apply keep_alike; exact AL|exact K].
Qed.

Lemma predict_alike : forall fuel m n rs, alike m n -> good m -> cons m -> cons n -> filled m ->
  orel ar (predict fuel m rs) (predict fuel n (map (moved_result g) rs)).
Proof.
  intros fuel m n rs AL GM CM CN FI. pose proof AL as [A1 A2 A3 A4 A5 A6 A7 A8 A9 A10 A11 A12 A13 A14 A15 A16 A17 A18].
  unfold predict. rewrite A2, A14. destruct (m_params m) as [p|] eqn:MP; cbn [option_map]; [|exact (keep_alike m n _ [] AL)].
  destruct (m_predictor m) as [pr|] eqn:PR, (m_predictor n) as [pn|] eqn:PN; cbn [opalike] in A1; try contradiction; [|exact (keep_alike m n _ [] AL)].
  destruct (m_last m) as [l|] eqn:ML; cbn [option_map]; [|exact (keep_alike m n _ [] AL)].
  destruct (parts_moved m n p l AL CM CN MP ML) as (B1 & B2 & B3 & B4 & B5 & (P1 & P2 & P3 & P4)).
  rewrite B3, (pred_construct_alike pr pn _ A1). destruct (pred_construct pr (pm_state (m_pos m))) as [tips| |]; unfold omap at 1; cbn [obind]; try nope2.
  assert (FL : g_mirror g = true -> sy_normal (sm_params (m_stylus m)) = false) by (intros GM'; rewrite P3; exact (A18 GM' p eq_refl)).
  assert (NE : lp_enabled (l_params (m_loop m)) = true -> s_raw (sm_state (m_stylus m)) <> []).
  { rewrite P4. intros EN. apply (FI p MP (mitigation_normal p (g_valid _ GM p MP) EN)). left. congruence. }
  rewrite B4, B5. change (i_time (li_input (moved_last l))) with (TT (i_time (li_input l))).
  rewrite (model_stylus_moved fuel tips (m_stylus m) (m_loop m) (i_time (li_input l)) FL NE).
  destruct (model_stylus fuel tips (m_stylus m) (m_loop m) _) as [[lm out]| |]; unfold omap; cbn [obind moved_out fst snd orel]; auto.
  cbn [ar]. split; [|auto]. constructor; flds; auto; try reflexivity.
Qed.

Lemma step_alike : forall fuel m n c, alike m n -> good m -> cons m -> cons n -> filled m -> movable g c ->
  orel (fun x y => alike (fst x) (fst y) /\ snd y = moved_reply g (snd x)) (step fuel m c) (step fuel n (moved_call g c)).
Proof.
  intros fuel m n c AL GM CM CN FI MV. pose proof AL as [A1 A2 A3 A4 A5 A6 A7 A8 A9 A10 A11 A12 A13 A14 A15 A16 A17 A18].
  destruct c as [p| |i rs|rs| |]; cbn [moved_call step].
  - unfold reset_params. rewrite (valid_moved p MV). destruct (validate_params p); cbn [orel fst snd]; (split; [|reflexivity]); try exact AL.
    constructor; flds; auto; try reflexivity.
    + apply make_alike. exact MV.
    + intros [H|[H _]]; [destruct (H eq_refl)|discriminate H].
    + intros H. discriminate H.
    + intros MI q E. apply some_inj in E. subst q. exact (proj2 (proj2 MV) MI).
  - unfold reset_keep. rewrite A2. destruct (m_params m) as [p|]; cbn [option_map orel fst snd]; (split; [|reflexivity]); [|exact AL].
    constructor; flds; auto; try reflexivity.
    + intros [H|[H _]]; [destruct (H eq_refl)|discriminate H].
    + intros H. discriminate H.
  - pose proof (update_alike fuel m n i rs AL GM CM CN) as U.
    destruct (update fuel m i rs) as [[[m1 s1] r1]| |], (update fuel n _ _) as [[[m2 s2] r2]| |]; cbn [orel obind ar fst snd] in *; try contradiction; auto.
    destruct U as (U1 & -> & ->). auto.
  - pose proof (predict_alike fuel m n rs AL GM CM CN FI) as U.
    destruct (predict fuel m rs) as [[[m1 s1] r1]| |], (predict fuel n _) as [[[m2 s2] r2]| |]; cbn [orel obind ar fst snd] in *; try contradiction; auto.
    destruct U as (U1 & -> & ->). auto.
  - cbn [orel fst snd]. split; [|reflexivity]. unfold save. constructor; flds; auto.
    + intros [H|[_ H]]; apply A6; left; exact H.
    + intros _ H. cbn [pos_save pm_saved option_map]. f_equal. apply A6. left. exact H.
    + destruct (m_predictor m), (m_predictor n); cbn [opalike] in *; try contradiction; auto.
  - cbn [orel fst snd]. split; [|reflexivity]. unfold restore. rewrite A17. destruct (m_save_active m) eqn:SA; [|exact AL].
    constructor; flds; auto.
    + destruct (m_saved_predictor m), (m_saved_predictor n); cbn [opalike] in *; try contradiction; auto.
    + unfold wobble_restore. rewrite A5. destruct (w_save_active (m_wobble m)); cbn [w_state]; auto.
    + unfold wobble_restore. rewrite A5. destruct (w_save_active (m_wobble m)); cbn [w_saved]; auto.
    + unfold wobble_restore. rewrite A5. destruct (w_save_active (m_wobble m)) eqn:E; cbn [w_save_active]; congruence.
    + intros H. unfold live in H. cbn [m_last m_save_active m_saved_last] in H. assert (SL : m_saved_last m <> None) by tauto.
      unfold pos_restore. rewrite (A7 eq_refl SL). destruct (pm_saved (m_pos m)); cbn [option_map pm_state]; [reflexivity|]. apply A6. right. auto.
    + intros _ SL. unfold pos_restore. rewrite (A7 eq_refl SL). destruct (pm_saved (m_pos m)) eqn:E; cbn [option_map pm_saved]; [reflexivity|]. rewrite E, (A7 eq_refl SL). reflexivity.
    + unfold stylus_restore. rewrite A10. destruct (sm_save_active (m_stylus m)); cbn [sm_state]; auto.
    + unfold stylus_restore. rewrite A10. destruct (sm_save_active (m_stylus m)); cbn [sm_saved]; auto.
    + unfold stylus_restore. rewrite A10. destruct (sm_save_active (m_stylus m)) eqn:E; cbn [sm_save_active]; congruence.
    + unfold loop_restore. rewrite A13. destruct (l_save_active (m_loop m)); cbn [l_samples]; auto.
    + unfold loop_restore. rewrite A13. destruct (l_save_active (m_loop m)); cbn [l_saved]; auto.
    + unfold loop_restore. rewrite A13. destruct (l_save_active (m_loop m)) eqn:E; cbn [l_save_active]; congruence.
Qed.

Lemma run_alike : forall fuel cs m n, alike m n -> good m -> cons m -> cons n -> filled m -> Forall (movable g) cs ->
  orel (fun x y => alike (fst x) (fst y) /\ good (fst x) /\ cons (fst x) /\ cons (fst y) /\ filled (fst x) /\ snd y = map (moved_reply g) (snd x))
    (run fuel m cs) (run fuel n (map (moved_call g) cs)).
Proof.
  intros fuel. induction cs as [|c cs IH]; intros m n AL GM CM CN FI F; cbn [run map].
  - cbn. auto 10.
  - pose proof (step_alike fuel m n c AL GM CM CN FI (Forall_inv F)) as ST.
    destruct (step fuel m c) as [[m1 r1]| |] eqn:S1, (step fuel n (moved_call g c)) as [[n1 r2]| |] eqn:S2; cbn [orel obind fst snd] in *; try contradiction; auto.
    destruct ST as [AL1 ->].
    specialize (IH m1 n1 AL1 (good_step _ _ _ _ _ GM S1) (cons_step _ _ _ _ _ CM S1) (cons_step _ _ _ _ _ CN S2) (filled_step _ _ _ _ _ GM CM FI S1) (Forall_inv_tail F)).
    destruct (run fuel m1 cs) as [[m2 q1]| |], (run fuel n1 (map (moved_call g) cs)) as [[n2 q2]| |]; cbn [orel obind fst snd] in *; try contradiction; auto.
    destruct IH as (I1 & I2 & I3 & I4 & I5 & ->). cbn [map]. auto 10.
Qed.
End Proofs.

(** ** The theorem *)
(** Draw the same strokes moved, turned, mirrored and scaled, at another pace and starting
    at another time, with the parameters converted accordingly: every call
    returns (or fails to) as before, with the same status and the same number of
    results, which are the old ones moved in the same way. *)
Theorem C44_similarity : forall (A := real_arith) fuel g hist cs, similarity g -> Forall (movable g) (hist ++ cs) ->
  answers fuel (map (moved_call g) hist) (map (moved_call g) cs) = omap (map (moved_reply g)) (answers fuel hist cs).
Proof.
  intros A fuel g hist cs SG F. subst A. apply Forall_app in F. destruct F as [F1 F2]. unfold answers.
  pose proof (run_alike g SG fuel hist modeler0 modeler0 (alike0 g) good0 cons0 cons0 filled0 F1) as K.
  destruct (run fuel modeler0 hist) as [[m rs]|e|], (run fuel modeler0 (map (moved_call g) hist)) as [[n qs]|e'|]; cbn [orel obind fst snd] in K; try contradiction; try reflexivity;
    try (rewrite K; reflexivity).
  destruct K as (K1 & K2 & K3 & K4 & K5 & _). cbn [obind].
  pose proof (run_alike g SG fuel cs m n K1 K2 K3 K4 K5 F2) as L.
  destruct (run fuel m cs) as [[m2 r2]|e|], (run fuel n (map (moved_call g) cs)) as [[n2 q2]|e'|]; cbn [orel obind fst snd] in L |- *; try contradiction; try reflexivity;
    try (rewrite L; reflexivity).
  destruct L as (_ & _ & _ & _ & _ & ->). reflexivity.
Qed.
