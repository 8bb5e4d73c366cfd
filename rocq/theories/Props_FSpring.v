(** * C38 in binary32/binary64: the spring model, up to rounding. *)
From Coq Require Import ZArith Bool List Reals Lra Lia Psatz.
From Flocq Require Import Core BinarySingleNaN.
From Verif Require Import Props_FRest Props_FRate Props_FLift Stable Filter Props_Stylus.
Import ListNotations.

(** ** Specification *)
Open Scope R_scope.
(** About a millionth, and the smallest steps of binary32. *)
Definition ppm : R := / 1048576.
Definition tiny : R := bpow radix2 (-146).

(** One coordinate of one step of the spring law: position [x], velocity [v],
    acceleration [a], then [x'], [v'], [a']; [w] is the anchor and [b] the size
    of the points it is between. *)
Definition nearly_spring (k c dt w b x v x' v' a' : R) : Prop :=
  Rabs (a' - ((w - x) / k - c * v)) <= ppm * ((b + Rabs x) / k + Rabs (c * v)) + tiny * (1 + / k) /\
  Rabs (v' - (v + dt * a')) <= ppm * (Rabs v + Rabs (dt * a')) + tiny * (1 + Rabs a') /\
  Rabs (x' - (x + dt * v')) <= ppm * (Rabs x + Rabs (dt * v')) + tiny * (1 + Rabs v').

Definition real32 (x : float32) : R := B2R x.
Definition real64 (x : float64) : R := B2R x.

(** [b] comes after [a] with an anchor the fraction [q] of the way from [p] to [p']. *)
Definition float_spring_law {acosf : float32 -> float32} (pp : PositionParams (A := ieee acosf))
    (a b : Result (A := ieee acosf)) (p p' : Vec2 (A := ieee acosf)) (q : R) : Prop :=
  let k := real32 (pp_spring pp) in let c := real32 (pp_drag pp) in let dt := real64 (r_time b) - real64 (r_time a) in
  (let u := real32 (vx p) in let u' := real32 (vx p') in
   nearly_spring k c dt (u + (u' - u) * q) (Rabs u + Rabs u') (real32 (vx (r_pos a))) (real32 (vx (r_vel a)))
     (real32 (vx (r_pos b))) (real32 (vx (r_vel b))) (real32 (vx (r_acc b)))) /\
  (let u := real32 (vy p) in let u' := real32 (vy p') in
   nearly_spring k c dt (u + (u' - u) * q) (Rabs u + Rabs u') (real32 (vy (r_pos a))) (real32 (vy (r_vel a)))
     (real32 (vy (r_pos b))) (real32 (vy (r_vel b))) (real32 (vy (r_acc b)))).

(** The results [out], which come after [prev], follow the law one after the other
    with anchors that go from [p] to [p'] in equal steps. *)
Definition float_drawn_along {acosf : float32 -> float32} (pp : PositionParams (A := ieee acosf))
    (prev : Result (A := ieee acosf)) (p p' : Vec2 (A := ieee acosf)) (out : list (Result (A := ieee acosf))) : Prop :=
  forall j r, nth_error out j = Some r -> exists q, nth_error (prev :: out) j = Some q /\
    float_spring_law pp q r p p' (INR (S j) / INR (List.length out)).

Fixpoint float_drawn {acosf : float32 -> float32} (pp : PositionParams (A := ieee acosf))
    (prev : Result (A := ieee acosf)) (p : Vec2 (A := ieee acosf)) (l : list (Vec2 (A := ieee acosf) * list (Result (A := ieee acosf)))) : Prop :=
  match l with
  | [] => True
  | (p', out) :: l' => float_drawn_along pp prev p p' out /\ float_drawn pp (last out prev) p' l'
  end.

(** All the numbers of a result but the stylus data are finite. *)
Definition finite_motion {acosf : float32 -> float32} (r : Result (A := ieee acosf)) : Prop :=
  (is_finite (vx (r_pos r) : float32) = true /\ is_finite (vy (r_pos r) : float32) = true) /\
  (is_finite (vx (r_vel r) : float32) = true /\ is_finite (vy (r_vel r) : float32) = true) /\
  (is_finite (vx (r_acc r) : float32) = true /\ is_finite (vy (r_acc r) : float32) = true) /\
  is_finite (r_time r : float64) = true.

(** ** The stroke as a chain of tips *)
Section Chain.
Context {A : Arith} (fuel : nat).

(** A result that shows a tip: without stylus data, interpolation from nothing. *)
Definition shows (tip : TipState) (r : Result) : Prop :=
  interp_result fuel result_no_info (make_result tip result_no_info) f1 = Ret r.

Fixpoint traced (pp : PositionParams) (tip : TipState) (a : Vec2) (l : list (Vec2 * list Result)) (tip' : TipState) : Prop :=
  match l with
  | [] => tip' = tip
  | (b, out) :: l' => exists ta tb n tip1 tips, update_along_path pp tip a ta b tb n = Ret (tip1, tips) /\
      Forall2 shows tips out /\ traced pp tip1 b l' tip'
  end.

Lemma traced_snoc : forall pp l tip a tip1 b out ta tb n tip2 tips,
  traced pp tip a l tip1 -> update_along_path pp tip1 (last (map fst l) a) ta b tb n = Ret (tip2, tips) -> Forall2 shows tips out ->
  traced pp tip a (l ++ [(b, out)]) tip2.
Proof.
  intros pp. induction l as [|[b0 out0] l IH]; intros tip a tip1 b out ta tb n tip2 tips H UA SH; cbn [app traced] in *.
  - subst tip1. exists ta, tb, n, tip2, tips. repeat split; assumption.
  - destruct H as (ta0 & tb0 & n0 & t1 & ts & H1 & H3 & H4). exists ta0, tb0, n0, t1, ts. split; [exact H1|]. split; [exact H3|].
    eapply IH; [exact H4| |exact SH]. cbn [map fst] in UA. rewrite last_cons' in UA. exact UA.
Qed.

Lemma shows_all : forall tips sm lm t lm' out, s_raw (sm_state sm) = [] -> lp_enabled (l_params lm) = false ->
  model_stylus fuel tips sm lm t = Ret (lm', out) -> Forall2 shows tips out.
Proof.
  intros tips sm lm t lm' out RAW OFF. unfold model_stylus.
  assert (E : loop_get lm = f1) by (unfold loop_get; apply loop_value_off; exact OFF). rewrite E. clear E. revert t lm' out.
  induction tips as [|tip rest IH]; intros t lm' out H; cbn [model_stylus_loop] in H; [injection H as <- <-; constructor|].
  unfold stylus_query at 1 in H. rewrite RAW in H. cbn [obind] in H.
  destruct (interp_result fuel result_no_info (make_result tip result_no_info) f1) as [r| |] eqn:IR; cbn [obind] in H; [|discriminate H|discriminate H].
  assert (LU : loop_update lm (r_vel r) (t_time tip) = (lm, f1)) by (unfold loop_update; rewrite OFF; reflexivity). rewrite LU in H.
  bind_inv H. destruct x as [l2 o2]. injection H as <- <-. constructor; [exact IR|]. eapply IH. exact E.
Qed.

(** The Down has unknown pressure, tilt and orientation. *)
Definition plain_down (es : list entry) : Prop := exists d out es', es = (d, out) :: es' /\
  unknown (i_pressure d) = true /\ unknown (i_tilt d) = true /\ unknown (i_orient d) = true.

Definition chain_inv (p : StrokeModelParams) (es : list entry) (c : core) : Prop :=
  exists d es' ws, es = (d, [down_result d]) :: es' /\ List.length ws = List.length es' /\ li_corrected (co_last c) = last ws (i_pos d) /\
    (wp_enabled (p_wobble p) = false -> ws = map (fun e => i_pos (fst e)) es') /\
    (lp_enabled (pp_loop (p_position p)) = false -> sy_normal (p_stylus p) = false ->
     unknown (i_pressure d) = true -> unknown (i_tilt d) = true -> unknown (i_orient d) = true ->
     s_unk_pressure (co_s c) = true /\ s_unk_tilt (co_s c) = true /\ s_unk_orient (co_s c) = true /\
     traced (p_position p) (mkTip (i_pos d) vzero vzero (i_time d)) (i_pos d) (combine ws (map snd es')) (co_tip c)).

Lemma combine_fst' : forall {X Y} (l : list X) (l2 : list Y), List.length l = List.length l2 -> map fst (combine l l2) = l.
Proof. intros X Y l. induction l as [|x l IH]; intros [|y l2] H; try discriminate; [reflexivity|]. cbn in *. f_equal. apply IH. lia. Qed.
Lemma combine_snoc' : forall {X Y} (l : list X) (l2 : list Y) x y, List.length l = List.length l2 ->
  combine (l ++ [x]) (l2 ++ [y]) = combine l l2 ++ [(x, y)].
Proof. intros X Y l. induction l as [|a l IH]; intros [|b l2] x y H; try discriminate; [reflexivity|]. cbn in *. f_equal. apply IH. lia. Qed.

Lemma chain_state : forall hist s es, after_stroke fuel hist s es ->
  exists m rs, run fuel modeler0 hist = Ret (m, rs) /\ tracks s m /\ good m /\ cons m /\
    (forall p last, m_params m = Some p -> m_last m = Some last -> chain_inv p es (core_of p m last)).
Proof.
  intros hist s es AS. eapply (after_stroke_state fuel (fun _ => True) chain_inv); [| | |exact AS|apply call_in_true].
  - intros p m i m' out _ MP V G U EV. destruct (upd_down fuel m i m' out U EV) as (q & sm & pred & MP2 & VI & _ & SU & UP & -> & ->).
    rewrite MP in MP2. injection MP2 as <-. exists i, [], []. do 3 (split; [reflexivity|]). split; [reflexivity|].
    intros L SN U1 U2 U3. pose proof (stylus_update_flags _ _ _ _ _ _ _ SU) as (E1 & E2 & E3). unfold core_of. cbn [co_s m_stylus co_tip traced].
    rewrite E1, E2, E3, U1, U2, U3, !orb_true_r. repeat split; reflexivity.
  - intros p m i m' out is lst last' _ MP V G CP ML (d & es' & ws & J1 & J2 & J3 & J4 & J5) U EV ML'.
    destruct (upd_move fuel m i m' out U EV) as (p0 & last0 & w & c & sm & n & tip & tips & pred & lm & MP0 & VI & ML0 & DL & WU & SU & NS & UA & UP & MS & EM).
    rewrite MP in MP0. injection MP0 as <-. rewrite ML in ML0. injection ML0 as <-. destruct CP as (C1 & C2 & C3 & C4).
    rewrite EM in ML' |- *. cbn in ML'. injection ML' as <-.
    exists d, (es' ++ [(i, out)]), (ws ++ [c]). split; [rewrite J1; reflexivity|]. split; [rewrite !app_length; cbn; lia|].
    split; [rewrite last_last; reflexivity|]. split.
    + intros W. rewrite map_app, (J4 W). f_equal. cbn. f_equal. apply (Props_FLift.wobble_off _ _ _ _ _ WU). congruence.
    + intros L SN U1 U2 U3. destruct (J5 L SN U1 U2 U3) as (J6 & J7 & J8 & J9). unfold core_of in *. cbn [co_s m_stylus co_tip co_last] in *.
      pose proof (stylus_update_flags _ _ _ _ _ _ _ SU) as (E1 & E2 & E3). rewrite J6 in E1. rewrite J7 in E2. rewrite J8 in E3. cbn [orb] in *.
      split; [exact E1|]. split; [exact E2|]. split; [exact E3|].
      rewrite map_app. change (map snd [(i, out)]) with [out]. rewrite combine_snoc' by (rewrite map_length; exact J2).
      eapply traced_snoc; [exact J9| |].
      * rewrite combine_fst' by (rewrite map_length; exact J2). rewrite <- J3, <- C2. exact UA.
      * eapply shows_all; [|rewrite C4; exact L|exact MS]. apply (stylus_update_raw _ _ _ _ _ _ _ SU); congruence.
  - intros p m i m' out is lst e _ MP V G CP ML (d & es' & ws & J1 & J2 & J3 & J4 & J5) U NE. exists d, es', ws.
    split; [exact J1|]. split; [exact J2|]. inversion U; subst; try congruence; try (split; [exact J3|]; split; [exact J4|]; exact J5).
    match goal with SU : stylus_update _ _ _ _ _ _ = _ |- _ => pose proof (stylus_update_flags _ _ _ _ _ _ _ SU) as (F1 & F2 & F3) end.
    split; [exact J3|]. split; [exact J4|]. intros L SN U1 U2 U3. destruct (J5 L SN U1 U2 U3) as (J6 & J7 & J8 & J9).
    unfold core_of in *. cbn [co_s m_stylus co_tip] in *. rewrite F1, F2, F3, J6, J7, J8. repeat split; try reflexivity. exact J9.
Qed.

End Chain.

(** ** The coordinates of a step *)
Section Coordinates.
Context {A : Arith}.
Lemma tip_x : forall pp s w t, let s' := tip_update pp s w t in
  vx (t_pos s') = fadd (vx (t_pos s)) (fmul (d2f (dsub t (t_time s))) (vx (t_vel s'))) /\
  vx (t_vel s') = fadd (vx (t_vel s)) (fmul (d2f (dsub t (t_time s))) (vx (t_acc s'))) /\
  vx (t_acc s') = fsub (fdiv (fsub (vx w) (vx (t_pos s))) (pp_spring pp)) (fmul (pp_drag pp) (vx (t_vel s))) /\ t_time s' = t.
Proof. intros. repeat split. Qed.
Lemma tip_y : forall pp s w t, let s' := tip_update pp s w t in
  vy (t_pos s') = fadd (vy (t_pos s)) (fmul (d2f (dsub t (t_time s))) (vy (t_vel s'))) /\
  vy (t_vel s') = fadd (vy (t_vel s)) (fmul (d2f (dsub t (t_time s))) (vy (t_acc s'))) /\
  vy (t_acc s') = fsub (fdiv (fsub (vy w) (vy (t_pos s))) (pp_spring pp)) (fmul (pp_drag pp) (vy (t_vel s))).
Proof. intros. repeat split. Qed.
Lemma interp_xy : forall a b r, clamp01 r = r ->
  vx (interp_v a b r) = fadd (vx a) (fmul r (fsub (vx b) (vx a))) /\ vy (interp_v a b r) = fadd (vy a) (fmul r (fsub (vy b) (vy a))).
Proof. intros a b r H. unfold interp_v. rewrite H. split; reflexivity. Qed.
End Coordinates.

(** ** Finite results of operations have finite operands *)
Section Inverse.
Notation b32 := float32.
Lemma plus_inv : forall x y : b32, is_finite (Bplus mode_NE x y) = true ->
  is_finite x = true /\ is_finite y = true /\ B2R (Bplus mode_NE x y) = r32 (B2R x + B2R y).
Proof.
  intros x y H.
  assert (FX : is_finite x = true) by (destruct x as [s|s| |s m e B]; try reflexivity; destruct y as [u|u| |u m' e' B']; try discriminate H; destruct s, u; discriminate H).
  assert (FY : is_finite y = true) by (destruct y as [s|s| |s m e B]; try reflexivity; destruct x as [u|u| |u m' e' B']; try discriminate H; discriminate FX).
  split; [exact FX|]. split; [exact FY|].
  pose proof (Bplus_correct 24 128 _ _ mode_NE x y FX FY) as K. destruct (Rlt_bool _ _) eqn:E.
  - destruct K as (K & _). exact K.
  - destruct K as (K & _). rewrite overflow_NE in K. apply B2SF_inf in K. rewrite K in H. discriminate H.
Qed.
Lemma minus_inv : forall x y : b32, is_finite (Bminus mode_NE x y) = true ->
  is_finite x = true /\ is_finite y = true /\ B2R (Bminus mode_NE x y) = r32 (B2R x - B2R y).
Proof.
  intros x y H.
  assert (FX : is_finite x = true) by (destruct x as [s|s| |s m e B]; try reflexivity; destruct y as [u|u| |u m' e' B']; try discriminate H; destruct s, u; discriminate H).
  assert (FY : is_finite y = true) by (destruct y as [s|s| |s m e B]; try reflexivity; destruct x as [u|u| |u m' e' B']; try discriminate H; discriminate FX).
  split; [exact FX|]. split; [exact FY|].
  pose proof (Bminus_correct 24 128 _ _ mode_NE x y FX FY) as K. destruct (Rlt_bool _ _) eqn:E.
  - destruct K as (K & _). exact K.
  - destruct K as (K & _). rewrite overflow_NE in K. apply B2SF_inf in K. rewrite K in H. discriminate H.
Qed.
Lemma mult_inv : forall x y : b32, is_finite (Bmult mode_NE x y) = true ->
  is_finite x = true /\ is_finite y = true /\ B2R (Bmult mode_NE x y) = r32 (B2R x * B2R y).
Proof.
  intros x y H.
  assert (FX : is_finite x = true) by (destruct x as [s|s| |s m e B]; try reflexivity; destruct y; discriminate H).
  assert (FY : is_finite y = true) by (destruct y as [s|s| |s m e B]; try reflexivity; destruct x; discriminate H).
  split; [exact FX|]. split; [exact FY|].
  pose proof (Bmult_correct 24 128 _ _ mode_NE x y) as K. destruct (Rlt_bool _ _) eqn:E.
  - destruct K as (K & _). exact K.
  - rewrite overflow_NE in K. apply B2SF_inf in K. rewrite K in H. discriminate H.
Qed.
Lemma div_inv : forall x y : b32, B2R y <> 0 -> is_finite (Bdiv mode_NE x y) = true ->
  is_finite x = true /\ B2R (Bdiv mode_NE x y) = r32 (B2R x / B2R y).
Proof.
  intros x y Y H.
  assert (FX : is_finite x = true) by (destruct x as [s|s| |s m e B]; try reflexivity; destruct y; try discriminate H; exfalso; apply Y; reflexivity).
  split; [exact FX|].
  pose proof (Bdiv_correct 24 128 _ _ mode_NE x y Y) as K. destruct (Rlt_bool _ _) eqn:E.
  - destruct K as (K & _). exact K.
  - rewrite overflow_NE in K. apply B2SF_inf in K. rewrite K in H. discriminate H.
Qed.
Lemma minus_inv64 : forall x y : float64, is_finite x = true -> is_finite y = true -> is_finite (Bminus mode_NE x y) = true ->
  B2R (Bminus mode_NE x y) = r64 (B2R x - B2R y).
Proof.
  intros x y FX FY H. pose proof (Bminus_correct 53 1024 _ _ mode_NE x y FX FY) as K. destruct (Rlt_bool _ _) eqn:E.
  - destruct K as (K & _). exact K.
  - destruct K as (K & _). rewrite overflow_NE in K. apply B2SF_inf in K. rewrite K in H. discriminate H.
Qed.
Lemma d2f_finite : forall x : float64, is_finite (b64_to_b32 x) = true -> is_finite x = true.
Proof. intros x H. destruct x as [s|s| |s m e B]; try reflexivity; discriminate H. Qed.
End Inverse.

(** ** Rounding errors *)
Lemma eta_0 : 0 < eta.
Proof. apply bpow_gt_0. Qed.
Lemma tiny_eta : tiny = 16 * eta.
Proof. unfold tiny, eta. change (-146)%Z with (4 + -150)%Z. rewrite bpow_plus. reflexivity. Qed.
Lemma eta_small : eta <= u24.
Proof. unfold eta, u24. change (/ 16777216) with (bpow radix2 (-24)). apply bpow_le. lia. Qed.

Lemma err_le : forall x b, Rabs x <= b -> Rabs (r32 x - x) <= u24 * b + eta /\ Rabs (r32 x) <= (1 + u24) * b + eta.
Proof.
  intros x b H. pose proof (r32_error x) as E. assert (U : 0 < u24) by (unfold u24; lra).
  assert (K : u24 * Rabs x <= u24 * b) by (apply Rmult_le_compat_l; lra). split; [lra|].
  replace (r32 x) with ((r32 x - x) + x) by ring. eapply Rle_trans; [apply Rabs_triang|]. lra.
Qed.

Lemma tri : forall a b c e1 e2, Rabs (a - b) <= e1 -> Rabs (b - c) <= e2 -> Rabs (a - c) <= e1 + e2.
Proof. intros a b c e1 e2 H1 H2. replace (a - c) with ((a - b) + (b - c)) by ring. eapply Rle_trans; [apply Rabs_triang|]. lra. Qed.
Lemma size : forall a b e s, Rabs (a - b) <= e -> Rabs b <= s -> Rabs a <= s + e.
Proof. intros a b e s H1 H2. replace a with ((a - b) + b) by ring. eapply Rle_trans; [apply Rabs_triang|]. lra. Qed.

(** The anchor. *)
Lemma between_le : forall a b q, 0 <= q <= 1 -> Rabs (a + (b - a) * q) <= Rabs a + Rabs b.
Proof.
  intros a b q Q. replace (a + (b - a) * q) with (a * (1 - q) + b * q) by ring. eapply Rle_trans; [apply Rabs_triang|].
  rewrite !Rabs_mult, (Rabs_pos_eq q), (Rabs_pos_eq (1 - q)) by lra. pose proof (Rabs_pos a). pose proof (Rabs_pos b). nra.
Qed.
Lemma anchor_error : forall a b rho q, 0 <= rho <= 1 -> 0 <= q <= 1 -> Rabs (rho - q) <= 4 * u24 ->
  Rabs (r32 (a + r32 (rho * r32 (b - a))) - (a + (b - a) * q)) <= 8 * u24 * (Rabs a + Rabs b) + 5 * eta.
Proof.
  intros a b rho q R0 Q0 RQ. pose proof eta_0 as E0. pose proof eta_small as ES. assert (U : u24 = / 16777216) by reflexivity.
  pose proof (between_le a b q Q0) as S0.
  pose proof (Rabs_pos a) as PA. pose proof (Rabs_pos b) as PB. set (B := Rabs a + Rabs b) in *.
  assert (D0 : Rabs (b - a) <= B) by (unfold B; replace (b - a) with (b + - a) by ring; eapply Rle_trans; [apply Rabs_triang|]; rewrite Rabs_Ropp; lra).
  destruct (err_le _ _ D0) as [D1 D2]. set (d := r32 (b - a)) in *.
  assert (M0 : Rabs (rho * d) <= (1 + u24) * B + eta).
  { rewrite Rabs_mult, (Rabs_pos_eq rho) by lra. pose proof (Rabs_pos d). nra. }
  destruct (err_le _ _ M0) as [M1 M2]. set (m := r32 (rho * d)) in *.
  assert (K1 : Rabs (rho * d - rho * (b - a)) <= u24 * B + eta).
  { replace (rho * d - rho * (b - a)) with (rho * (d - (b - a))) by ring. rewrite Rabs_mult, (Rabs_pos_eq rho) by lra. pose proof (Rabs_pos (d - (b - a))). nra. }
  assert (K2 : Rabs (rho * (b - a) - q * (b - a)) <= 4 * u24 * B).
  { replace (rho * (b - a) - q * (b - a)) with ((rho - q) * (b - a)) by ring. rewrite Rabs_mult. apply Rmult_le_compat; try apply Rabs_pos; assumption. }
  pose proof (tri _ _ _ _ _ M1 (tri _ _ _ _ _ K1 K2)) as K3.
  assert (K5 : Rabs (a + m - (a + (b - a) * q)) <= 6 * u24 * B + u24 * (u24 * B + eta) + 2 * eta).
  { replace (a + m - (a + (b - a) * q)) with (m - q * (b - a)) by ring. eapply Rle_trans; [exact K3|]. rewrite U. lra. }
  assert (PBB : 0 <= B) by (unfold B; lra). clearbody B.
  pose proof (size _ _ _ _ K5 S0) as W0. destruct (err_le _ _ W0) as [W1 _].
  pose proof (tri _ _ _ _ _ W1 K5) as K6. eapply Rle_trans; [exact K6|]. rewrite U. lra.
Qed.

(** The acceleration: anchor [w], as computed [wf]. *)
Lemma acc_error : forall w wf B x k c v, 0 < k -> 0 <= B -> Rabs w <= B -> Rabs (wf - w) <= 8 * u24 * B + 5 * eta ->
  Rabs (r32 (r32 (r32 (wf - x) / k) - r32 (c * v)) - ((w - x) / k - c * v)) <= ppm * ((B + Rabs x) / k + Rabs (c * v)) + tiny * (1 + / k).
Proof.
  intros w wf B x k c v K B0 W0 WE. pose proof eta_0 as E0. pose proof eta_small as ES. assert (U : u24 = / 16777216) by reflexivity.
  rewrite tiny_eta. unfold ppm. pose proof (Rabs_pos x) as PX. pose proof (Rinv_0_lt_compat _ K) as IK. set (ik := / k) in *. unfold Rdiv. fold ik.
  assert (F0 : Rabs (w - x) <= B + Rabs x) by (unfold Rminus; eapply Rle_trans; [apply Rabs_triang|]; rewrite Rabs_Ropp; lra).
  assert (F1 : Rabs (wf - x - (w - x)) <= 8 * u24 * B + 5 * eta) by (replace (wf - x - (w - x)) with (wf - w) by ring; exact WE).
  pose proof (size _ _ _ _ F1 F0) as F2. destruct (err_le _ _ F2) as [F3 _]. pose proof (tri _ _ _ _ _ F3 F1) as F4.
  set (d := r32 (wf - x)) in *. set (S := B + Rabs x) in *. assert (S0 : B <= S) by (unfold S; lra). assert (PS : 0 <= S) by lra. clearbody S.
  assert (F5 : Rabs (d - (w - x)) <= 10 * u24 * S + 7 * eta) by (eapply Rle_trans; [exact F4|]; rewrite U; lra).
  assert (Q0 : Rabs (d * ik - (w - x) * ik) <= 10 * u24 * (S * ik) + 7 * (eta * ik)).
  { rewrite <- Rmult_minus_distr_r, Rabs_mult, (Rabs_pos_eq ik) by lra. replace (10 * u24 * (S * ik) + 7 * (eta * ik)) with ((10 * u24 * S + 7 * eta) * ik) by ring. apply Rmult_le_compat_r; lra. }
  assert (Q1 : Rabs ((w - x) * ik) <= S * ik) by (rewrite Rabs_mult, (Rabs_pos_eq ik) by lra; apply Rmult_le_compat_r; lra).
  assert (P1 : 0 <= S * ik) by (apply Rmult_le_pos; lra). assert (P2 : 0 <= eta * ik) by (apply Rmult_le_pos; lra).
  set (Sk := S * ik) in *. set (Ek := eta * ik) in *.
  pose proof (size _ _ _ _ Q0 Q1) as Q2. destruct (err_le _ _ Q2) as [Q3 _]. pose proof (tri _ _ _ _ _ Q3 Q0) as Q4.
  set (q := r32 (d * ik)) in *. destruct (err_le (c * v) _ (Rle_refl _)) as [M1 M2]. set (m := r32 (c * v)) in *. pose proof (Rabs_pos (c * v)) as PC.
  set (C := Rabs (c * v)) in *.
  assert (A0 : Rabs (q - m - ((w - x) * ik - c * v)) <= 12 * u24 * Sk + 9 * Ek + u24 * C + 2 * eta).
  { replace (q - m - ((w - x) * ik - c * v)) with ((q - (w - x) * ik) + - (m - c * v)) by ring. eapply Rle_trans; [apply Rabs_triang|]. rewrite Rabs_Ropp.
    eapply Rle_trans; [apply Rplus_le_compat; [exact Q4|exact M1]|]. rewrite U. lra. }
  assert (A1 : Rabs ((w - x) * ik - c * v) <= Sk + C) by (unfold Rminus; eapply Rle_trans; [apply Rabs_triang|]; rewrite Rabs_Ropp; fold C; unfold Rminus in Q1; lra).
  pose proof (size _ _ _ _ A0 A1) as A2. destruct (err_le _ _ A2) as [A3 _]. pose proof (tri _ _ _ _ _ A3 A0) as A4.
  eapply Rle_trans; [exact A4|]. rewrite U. fold Sk. replace (16 * eta * (1 + ik)) with (16 * eta + 16 * Ek) by (unfold Ek; ring). lra.
Qed.

(** One explicit Euler step. *)
Lemma euler_error : forall x y t0 t1,
  Rabs (r32 (x + r32 (r32 (r64 (t1 - t0)) * y)) - (x + (t1 - t0) * y)) <= ppm * (Rabs x + Rabs ((t1 - t0) * y)) + tiny * (1 + Rabs y).
Proof.
  intros x y t0 t1. pose proof eta_0 as E0. pose proof eta_small as ES. assert (U : u24 = / 16777216) by reflexivity. rewrite tiny_eta. unfold ppm.
  set (dt := t1 - t0). pose proof (Rabs_pos x) as PX. pose proof (Rabs_pos y) as PY. pose proof (Rabs_pos dt) as PD.
  pose proof (r64_error dt) as D0. unfold u53 in D0. pose proof (size _ _ _ _ D0 (Rle_refl _)) as D1. destruct (err_le _ _ D1) as [D2 _].
  pose proof (tri _ _ _ _ _ D2 D0) as D3. set (dl := r32 (r64 dt)) in *.
  assert (D4 : Rabs (dl - dt) <= 2 * u24 * Rabs dt + 3 * eta) by (eapply Rle_trans; [exact D3|]; rewrite U; lra).
  assert (M0 : Rabs (dl * y - dt * y) <= 2 * u24 * Rabs (dt * y) + 3 * (eta * Rabs y)).
  { rewrite <- Rmult_minus_distr_r, !Rabs_mult. replace (2 * u24 * (Rabs dt * Rabs y) + 3 * (eta * Rabs y)) with ((2 * u24 * Rabs dt + 3 * eta) * Rabs y) by ring. apply Rmult_le_compat_r; lra. }
  pose proof (Rabs_pos (dt * y)) as PM. assert (PE : 0 <= eta * Rabs y) by (apply Rmult_le_pos; lra). set (Ey := eta * Rabs y) in *.
  set (P := Rabs (dt * y)) in *. assert (M1 : Rabs (dt * y) <= P) by (apply Rle_refl).
  pose proof (size _ _ _ _ M0 M1) as M2. destruct (err_le _ _ M2) as [M3 _]. pose proof (tri _ _ _ _ _ M3 M0) as M4. set (m := r32 (dl * y)) in *.
  assert (M5 : Rabs (x + m - (x + dt * y)) <= 4 * u24 * P + 4 * Ey + eta).
  { replace (x + m - (x + dt * y)) with (m - dt * y) by ring. eapply Rle_trans; [exact M4|]. rewrite U. lra. }
  assert (M6 : Rabs (x + dt * y) <= Rabs x + P) by apply Rabs_triang.
  pose proof (size _ _ _ _ M5 M6) as M7. destruct (err_le _ _ M7) as [M8 _]. pose proof (tri _ _ _ _ _ M8 M5) as M9.
  eapply Rle_trans; [exact M9|]. rewrite U. replace (16 * eta * (1 + Rabs y)) with (16 * eta + 16 * Ey) by (unfold Ey; ring). lra.
Qed.

Lemma ratio_error_any : forall n j, (Z.of_nat j <= n)%Z -> (1 <= n <= INT_MAX)%Z -> Rabs (B2R (ratio n j) - INR j / IZR n) <= 4 * u24.
Proof.
  intros n j J N. destruct (ratio_fin n j J N) as (_ & E1 & N1 & J1). rewrite E1. clear E1.
  assert (J0 : 0 <= INR j) by apply pos_INR. assert (JN : INR j <= IZR n) by (rewrite INR_IZR_INZ; apply IZR_le; exact J).
  assert (N0 : 1 <= IZR n) by (apply IZR_le; lia). pose proof eta_0 as E0. pose proof eta_small as ES. assert (U : u24 = / 16777216) by reflexivity.
  assert (EE : eta <= / 1099511627776) by (unfold eta; change (/ 1099511627776) with (bpow radix2 (-40)); apply bpow_le; lia).
  pose proof (r32_error (IZR n)) as RN. rewrite (Rabs_pos_eq (IZR n)) in RN by lra.
  pose proof (r32_error (INR j)) as RJ. rewrite (Rabs_pos_eq (INR j)) in RJ by lra.
  set (I := r32 (INR j)) in *. set (M := r32 (IZR n)) in *. set (x := INR j) in *. set (y := IZR n) in *.
  assert (Q : Rabs (I / M - x / y) <= 2 * u24 * (17 / 16)).
  { assert (K : I / M - x / y = (I * y - x * M) / (M * y)) by (field; lra). rewrite K. unfold Rdiv. rewrite Rabs_mult, (Rabs_pos_eq (/ (M * y))) by (apply Rlt_le, Rinv_0_lt_compat; nra).
    apply Rmult_le_reg_r with (M * y); [nra|]. rewrite Rmult_assoc, Rinv_l by nra. rewrite Rmult_1_r.
    replace (I * y - x * M) with ((I - x) * y + - ((M - y) * x)) by ring. eapply Rle_trans; [apply Rabs_triang|]. rewrite Rabs_Ropp, !Rabs_mult, (Rabs_pos_eq y), (Rabs_pos_eq x) by lra.
    assert (T1 : Rabs (I - x) * y <= (u24 * y + eta) * y) by (apply Rmult_le_compat_r; [lra|]; rewrite U in *; lra).
    assert (T2 : Rabs (M - y) * x <= (u24 * y + eta) * y) by (pose proof (Rabs_pos (M - y)); apply Rmult_le_compat; lra).
    assert (T3 : y * (33 / 34) <= M) by (apply Rabs_le_inv in RN; rewrite U in *; lra).
    assert (T4 : (u24 * y + eta) <= u24 * (129 / 128) * y) by (rewrite U in *; lra).
    assert (T5 : (u24 * y + eta) * y <= u24 * (129 / 128) * y * y) by (apply Rmult_le_compat_r; lra).
    assert (T6 : y * (33 / 34) * y <= M * y) by (apply Rmult_le_compat_r; lra).
    clear - T1 T2 T5 T6 U N0. clearbody M I x y. set (X := Rabs (I - x)) in *. set (Y := Rabs (M - y)) in *. set (yy := y * y) in *. replace (u24 * (129 / 128) * y * y) with (u24 * (129 / 128) * yy) in T5 by (unfold yy; ring).
    replace (y * (33 / 34) * y) with (33 / 34 * yy) in T6 by (unfold yy; ring). assert (0 <= yy) by (unfold yy; nra). rewrite U in *. lra. }
  assert (QS : Rabs (x / y) <= 1).
  { unfold Rdiv. rewrite Rabs_pos_eq by (apply Rmult_le_pos; [lra|apply Rlt_le, Rinv_0_lt_compat; lra]).
    apply Rmult_le_reg_r with y; [lra|]. rewrite Rmult_assoc, Rinv_l by lra. lra. }
  destruct (err_le _ _ (size _ _ _ _ Q QS)) as [W _]. pose proof (tri _ _ _ _ _ W Q) as K. eapply Rle_trans; [exact K|]. rewrite U in *. lra.
Qed.

(** One coordinate of one step. *)
Lemma coord_step : forall (a b rho k c x v wf dl acc vel pos : float32) (t0 t1 : float64) q,
  unit32 rho -> 0 <= q <= 1 -> Rabs (B2R rho - q) <= 4 * u24 -> 0 < B2R k -> is_finite t0 = true -> is_finite t1 = true ->
  wf = Bplus mode_NE a (Bmult mode_NE rho (Bminus mode_NE b a)) ->
  dl = b64_to_b32 (Bminus mode_NE t1 t0) ->
  acc = Bminus mode_NE (Bdiv mode_NE (Bminus mode_NE wf x) k) (Bmult mode_NE c v) ->
  vel = Bplus mode_NE v (Bmult mode_NE dl acc) ->
  pos = Bplus mode_NE x (Bmult mode_NE dl vel) ->
  is_finite pos = true ->
  nearly_spring (B2R k) (B2R c) (B2R t1 - B2R t0) (B2R a + (B2R b - B2R a) * q) (Rabs (B2R a) + Rabs (B2R b)) (B2R x) (B2R v) (B2R pos) (B2R vel) (B2R acc).
Proof.
  intros a b rho k c x v wf dl acc vel pos t0 t1 q R0 Q0 RQ K0 T0 T1 Ewf Edl Eacc Evel Epos FP. destruct R0 as [_ R0].
  rewrite Epos in FP.
  destruct (plus_inv _ _ FP) as (_ & FM & EP). rewrite <- Epos in EP. rewrite Evel in FM. destruct (mult_inv _ _ FM) as (FD & FV & EM). rewrite <- Evel in EM.
  destruct (plus_inv _ _ FV) as (_ & FM2 & EV). rewrite <- Evel in EV. rewrite Eacc in FM2. destruct (mult_inv _ _ FM2) as (_ & FA & EM2). rewrite <- Eacc in EM2.
  destruct (minus_inv _ _ FA) as (FQ & FC & EA). rewrite <- Eacc in EA. destruct (mult_inv _ _ FC) as (_ & _ & EC).
  destruct (div_inv _ _ (Rgt_not_eq _ _ K0) FQ) as (FS & EQ). destruct (minus_inv _ _ FS) as (FW & _ & ES). rewrite Ewf in FW.
  destruct (plus_inv _ _ FW) as (_ & FR & EW). rewrite <- Ewf in EW. destruct (mult_inv _ _ FR) as (_ & FB & ER). destruct (minus_inv _ _ FB) as (_ & _ & EB).
  assert (ED : B2R dl = r32 (r64 (B2R t1 - B2R t0))).
  { rewrite Edl in FD |- *. pose proof (d2f_finite _ FD) as FM64. rewrite d2f_inv by assumption. f_equal. apply minus_inv64; assumption. }
  split; [|split].
  - rewrite EA, EQ, EC, ES, EW, ER, EB. apply acc_error; [exact K0| |apply between_le; exact Q0|apply anchor_error; assumption].
    pose proof (Rabs_pos (B2R a)). pose proof (Rabs_pos (B2R b)). lra.
  - rewrite EV, EM2, ED. apply euler_error.
  - rewrite EP, EM, ED. apply euler_error.
Qed.

(** ** The tips and the results *)
Section FSpring.
Variable acosf : float32 -> float32.
Let A := ieee acosf.
Local Existing Instance A.

Definition same_vec (u v : Vec2) : Prop := num (B2R (vx u : float32)) (vx v : float32) /\ num (B2R (vy u : float32)) (vy v : float32).
Definition same_tip (r : Result) (s : TipState) : Prop :=
  same_vec (r_pos r) (t_pos s) /\ same_vec (r_vel r) (t_vel s) /\ same_vec (r_acc r) (t_acc s) /\ num (B2R (r_time r : float64)) (t_time s : float64).

Lemma shown_vec : forall v : Vec2, is_finite (vx (interp_v vzero v f1) : float32) = true -> is_finite (vy (interp_v vzero v f1) : float32) = true ->
  same_vec (interp_v vzero v f1) v.
Proof.
  intros v FX FY. unfold A in *.
  assert (X : is_finite (vx v : float32) = true).
  { cbn [interp_v vadd vscale vsub vx fadd fmul fsub ieee] in FX. apply plus_inv in FX. destruct FX as (_ & FX & _). apply mult_inv in FX. destruct FX as (_ & FX & _). apply minus_inv in FX. apply FX. }
  assert (Y : is_finite (vy v : float32) = true).
  { cbn [interp_v vadd vscale vsub vy fadd fmul fsub ieee] in FY. apply plus_inv in FY. destruct FY as (_ & FY & _). apply mult_inv in FY. destruct FY as (_ & FY & _). apply minus_inv in FY. apply FY. }
  destruct (interp_v_from0 acosf (B2R (vx v : float32)) (B2R (vy v : float32)) vzero v (vzero_0 acosf)) as [[_ E1] [_ E2]]; [split; split; auto|].
  unfold A. split; (split; [assumption|]); symmetry; assumption.
Qed.

Lemma shows_same : forall fuel tip r, shows fuel tip r -> finite_motion r -> same_tip r tip.
Proof.
  intros fuel tip r H ((P1 & P2) & (V1 & V2) & (A1 & A2) & T). unfold shows in H. pose proof (interp_result_time _ _ _ _ _ _ H) as HT.
  unfold interp_result in H. bind_inv H. apply ret_inj in H. subst r. cbn [r_pos r_vel r_acc r_time] in *.
  cbn [result_no_info make_result r_pos r_vel r_acc r_time] in *.
  split; [apply shown_vec; assumption|]. split; [apply shown_vec; assumption|]. split; [apply shown_vec; assumption|].
  destruct (interp_t_1 acosf (@d0 A) (t_time tip) (or_intror (d0_eq acosf))) as [K1 K2]. pose proof (K2 T) as F. split; [exact F|]. symmetry. apply K1. exact F.
Qed.

Lemma tip_law : forall pp s prev a b rho (t : float64) r q, same_tip prev s -> same_tip r (tip_update pp s (interp_v a b rho) t) ->
  unit32 rho -> 0 <= q <= 1 -> Rabs (B2R (rho : float32) - q) <= 4 * u24 -> 0 < B2R (pp_spring pp : float32) ->
  float_spring_law pp prev r a b q.
Proof.
  intros pp s prev a b rho t r q ([[_ PX] [_ PY]] & [[_ VX] [_ VY]] & _ & [FT PT]) ([[FX QX] [FY QY]] & [[_ WX] [_ WY]] & [[_ BX] [_ BY]] & [FT' QT]) R0 Q0 RQ K.
  set (w := interp_v a b rho) in *. set (s' := tip_update pp s w t) in *.
  assert (CL : clamp01 rho = rho) by (apply clamp_id; exact R0).
  destruct (interp_xy a b rho CL) as [IX IY]. fold w in IX, IY. destruct (tip_x pp s w t) as (X1 & X2 & X3 & X4). destruct (tip_y pp s w t) as (Y1 & Y2 & Y3).
  fold s' in X1, X2, X3, X4, Y1, Y2, Y3. rewrite X4 in FT', QT. clearbody s' w.
  unfold float_spring_law, real32, real64. cbv zeta. unfold A in *. rewrite <- PX, <- PY, <- VX, <- VY, <- QX, <- QY, <- WX, <- WY, <- BX, <- BY, <- PT, <- QT.
  split.
  - exact (coord_step _ _ rho _ _ _ _ _ _ _ _ _ _ _ q R0 Q0 RQ K FT FT' IX eq_refl X3 X2 X1 FX).
  - exact (coord_step _ _ rho _ _ _ _ _ _ _ _ _ _ _ q R0 Q0 RQ K FT FT' IY eq_refl Y3 Y2 Y1 FY).
Qed.

Lemma path_law : forall fuel pp a ta b tb n, (1 <= n < INT_MAX)%Z -> 0 < B2R (pp_spring pp : float32) ->
  forall k i s prev sf tips out, (1 <= i)%nat -> (i + k = S (Z.to_nat n))%nat -> path_loop pp s a ta b tb n (Z.of_nat i) k = (sf, tips) ->
  same_tip prev s -> Forall2 (shows fuel) tips out -> Forall finite_motion out ->
  (forall j r, nth_error out j = Some r -> exists q, nth_error (prev :: out) j = Some q /\ float_spring_law pp q r a b (INR (i + j) / IZR n)) /\
  same_tip (last out prev) sf.
Proof.
  intros fuel pp a ta b tb n N K. induction k as [|k IH]; intros i s prev sf tips out I0 IK H SP SH FM.
  - cbn [path_loop] in H. injection H as <- <-. inversion SH; subst. split; [|exact SP]. intros j r NJ. destruct j; discriminate NJ.
  - cbn [path_loop] in H. replace (Z.of_nat i + 1)%Z with (Z.of_nat (S i)) in H by lia.
    set (rho := fdiv (fofZ (Z.of_nat i)) (fofZ n)) in *. change rho with (ratio n i) in *. clear rho.
    set (s' := tip_update pp s (interp_v a b (ratio n i)) (interp_t ta tb (ratio n i))) in *.
    destruct (path_loop pp s' a ta b tb n (Z.of_nat (S i)) k) as [sf' o] eqn:PL. injection H as <- <-.
    inversion SH as [|? r0 ? out' S1 S2]; subst. pose proof (Forall_inv FM) as F0. apply Forall_inv_tail in FM.
    pose proof (shows_same _ _ _ S1 F0) as S3.
    destruct (IH (S i) s' r0 sf' o out') as [L1 L2]; try assumption; try lia.
    assert (LAW : float_spring_law pp prev r0 a b (INR i / IZR n)).
    { assert (IN : (Z.of_nat i <= n)%Z) by lia. destruct (ratio_fin n i IN ltac:(lia)) as (UR & _).
      eapply (tip_law pp s prev a b (ratio n i) (interp_t ta tb (ratio n i)) r0); [exact SP|exact S3|exact UR| |apply ratio_error_any; lia|exact K].
      assert (1 <= IZR n) by (apply IZR_le; lia). assert (INR i <= IZR n) by (rewrite INR_IZR_INZ; apply IZR_le; exact IN). pose proof (pos_INR i).
      split; [apply Rmult_le_pos; [assumption|apply Rlt_le, Rinv_0_lt_compat; lra]|].
      apply Rmult_le_reg_r with (IZR n); [lra|]. unfold Rdiv. rewrite Rmult_assoc, Rinv_l by lra. lra. }
    split.
    + intros [|j] r NJ.
      * injection NJ as <-. exists prev. split; [reflexivity|]. rewrite Nat.add_0_r. exact LAW.
      * cbn [nth_error] in NJ. destruct (L1 j r NJ) as (q & Q1 & Q2). exists q. split; [exact Q1|]. replace (i + S j)%nat with (S i + j)%nat by lia. exact Q2.
    + rewrite last_cons'. exact L2.
Qed.

Lemma path_length : forall k pp s a ta b tb n i sf tips, path_loop (A := A) pp s a ta b tb n i k = (sf, tips) -> List.length tips = k.
Proof.
  induction k as [|k IH]; intros pp s a ta b tb n i sf tips H; cbn [path_loop] in H; [injection H as <- <-; reflexivity|].
  destruct (path_loop _ _ _ _ _ _ n (i + 1) k) as [sf' o] eqn:E. injection H as <- <-. cbn. f_equal. eapply IH. exact E.
Qed.

Lemma traced_law : forall fuel pp, 0 < B2R (pp_spring pp : float32) -> forall l tip prev a tip',
  traced fuel pp tip a l tip' -> same_tip prev tip -> Forall finite_motion (List.concat (map snd l)) -> float_drawn pp prev a l.
Proof.
  intros fuel pp K. induction l as [|[b out] l IH]; intros tip prev a tip' H SP F; cbn [traced float_drawn] in *; [exact I|].
  destruct H as (ta & tb & n & tip1 & tips & UA & SH & TR). cbn [map List.concat snd] in F. apply Forall_app in F. destruct F as [F1 F2].
  unfold update_along_path in UA. destruct (Z.leb INT_MAX n) eqn:LN; [discriminate UA|]. apply Z.leb_gt in LN. apply ret_inj in UA.
  destruct (Z_lt_le_dec n 1) as [N|N].
  - replace (Z.to_nat n) with 0%nat in UA by lia. cbn [path_loop] in UA. injection UA as <- <-. inversion SH; subst. split.
    + intros j r NJ. destruct j; discriminate NJ.
    + cbn [last]. eapply IH; eassumption.
  - destruct (path_law fuel pp a ta b tb n ltac:(lia) K (Z.to_nat n) 1 tip prev tip1 tips out) as [L1 L2]; try assumption; try lia.
    assert (LEN : INR (List.length out) = IZR n).
    { rewrite <- (Forall2_len _ _ _ SH), (path_length _ _ _ _ _ _ _ _ _ _ _ UA), INR_IZR_INZ. f_equal. lia. }
    split; [|eapply IH; eassumption]. unfold A in *. intros j r NJ. rewrite LEN. exact (L1 j r NJ).
Qed.

End FSpring.

(** ** C38 *)
(** Smoothing and loop mitigation off, and no stylus data: as long as the results
    are finite, every result follows the previous one by the law, the anchors going
    from input to input, up to about a millionth of the numbers involved. *)
Theorem C38_float_spring_law : forall acosf (A := ieee acosf) fuel hist s (p : StrokeModelParams (A := ieee acosf)) es,
  after_stroke fuel hist s es -> ps_params s = Some p -> in_stroke s = true ->
  wp_enabled (p_wobble p) = false -> lp_enabled (pp_loop (p_position p)) = false -> sy_normal (p_stylus p) = false ->
  plain_down es -> Forall finite_motion (List.concat (map snd es)) ->
  exists d r es', es = (d, [r]) :: es' /\
    r_pos r = i_pos d /\ r_vel r = mkVec2 f0 f0 /\ r_acc r = mkVec2 f0 f0 /\ r_time r = i_time d /\
    float_drawn (p_position p) r (i_pos d) (map (fun e => (i_pos (fst e), snd e)) es').
Proof.
  intros acosf A fuel hist s p es AS P IS W L SN PD F. subst A.
  destruct (chain_state fuel _ _ _ AS) as (m & rs & _ & (T1 & T2 & _) & G & _ & K).
  unfold in_stroke in IS. rewrite T2 in IS. destruct (m_last m) as [lst|]; [|discriminate IS]. rewrite P in T1. symmetry in T1.
  destruct (K p lst T1 eq_refl) as (d & es' & ws & -> & LW & _ & KW & KD). clear K.
  destruct PD as (d0 & out0 & es0 & E0 & U1 & U2 & U3). injection E0 as <- _ _.
  destruct (KD L SN U1 U2 U3) as (_ & _ & _ & TR). exists d, (down_result d), es'. do 5 (split; [reflexivity|]).
  cbn [map snd List.concat app] in F. pose proof (Forall_inv F) as F0. apply Forall_inv_tail in F.
  replace (map (fun e => (i_pos (fst e), snd e)) es') with (combine ws (map snd es')).
  - assert (V : validate_params p = OkStatus) by (apply (g_valid _ G); exact T1).
    eapply (traced_law acosf fuel (p_position p)); [|exact TR| |].
    + destruct (validate_params_parts p V) as (_ & VP & _). unfold validate_position in VP.
      apply and_then_ok in VP. destruct VP as [_ VP]. apply and_then_ok in VP. destruct VP as [V1 _]. apply gt0_f_F in V1. exact (proj2 V1).
    + destruct F0 as ((P1 & P2) & (V1 & V2) & (A1 & A2) & T). cbn [down_result r_pos r_vel r_acc r_time] in *.
      repeat split; cbn [t_pos t_vel t_acc t_time r_pos r_vel r_acc r_time down_result]; assumption.
    + replace (map snd (combine ws (map snd es'))) with (map snd es'); [exact F|].
      symmetry. clear - LW. revert ws LW. induction es' as [|e es' IH]; intros [|w ws] LW; try discriminate LW; [reflexivity|]. cbn. f_equal. apply IH. cbn in LW. lia.
  - rewrite (KW W). clear. induction es' as [|e es' IH]; [reflexivity|]. cbn. rewrite IH. reflexivity.
Qed.
