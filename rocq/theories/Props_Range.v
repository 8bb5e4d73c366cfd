(** * C27, C28, C46: ranges of the reported pressure and orientation, and
      termination, in IEEE arithmetic. *)
From Coq Require Import ZArith Bool List Reals Lra Lia.
From Flocq Require Import Core.Core IEEE754.BinarySingleNaN.
From Verif Require Export Made FltAngle Ieee.
Import ListNotations.
Open Scope Z_scope.

Section Range.
Variable acosf : float32 -> float32.
Notation AI := (ieee acosf).

(** ** Projection ratios are numbers *)
Lemma hypot_nan : forall x y : float32, is_nan x = true -> is_nan y = true -> is_nan (b_hypot x y) = true.
Proof. intros x y X Y. destruct x; try discriminate X. destruct y; try discriminate Y. reflexivity. Qed.

Lemma interp_v_nan : forall (a b : @Vec2 AI) (x : float32), is_nan x = true ->
  is_nan (vx (@interp_v AI a b x)) = true /\ is_nan (vy (@interp_v AI a b x)) = true.
Proof.
  intros a b x N. unfold interp_v, vadd, vscale. cbn [vx vy fadd fmul ieee].
  pose proof (clamp_nan acosf x N) as C. destruct (@clamp01 AI x); try discriminate C.
  assert (K : forall u v : float32, is_nan (Bplus mode_NE u (Bmult mode_NE B754_nan v)) = true)
    by (intros u v; destruct u, v; reflexivity).
  split; apply K.
Qed.

Lemma nan_eq : forall x : float32, is_nan x = true -> x = B754_nan.
Proof. intros [] H; try discriminate H; reflexivity. Qed.
Lemma distance_nan : forall (pos a b : @Vec2 AI) (x : float32), is_nan x = true ->
  @distance AI pos (@interp_v AI a b x) = B754_nan.
Proof.
  intros pos a b x N. destruct (interp_v_nan a b x N) as [NX NY].
  set (q := @interp_v AI a b x) in *. clearbody q. destruct q as [qx qy]. cbn [vx vy] in NX, NY.
  apply nan_eq in NX. apply nan_eq in NY. subst qx qy. unfold distance, magnitude, vsub. cbn [vx vy fsub fhypot ieee].
  destruct (vx pos), (vy pos); reflexivity.
Qed.

Definition ratio_ok (b : @best AI) : Prop := match b with None => True | Some (p, _) => is_nan (pj_ratio p) = false end.

Lemma normal_ratio : forall pos n raw l r l' r', ratio_ok l -> ratio_ok r ->
  @project_normal_loop AI pos n raw l r = (l', r') -> ratio_ok l' /\ ratio_ok r'.
Proof.
  intros pos n. induction raw as [|a raw IH]; intros l r l' r' L R H; [inversion H; subst; auto|].
  destruct raw as [|b rest]; [inversion H; subst; auto|]. cbn [project_normal_loop] in H.
  destruct (project_to_segment_along_normal _ _ _ _) as [ratio|]; [|exact (IH _ _ _ _ L R H)].
  assert (K : forall b0, ratio_ok b0 -> ratio_ok (maybe_update (mkProj a b ratio) (distance pos (interp_v (r_pos a) (r_pos b) ratio)) b0)).
  { intros b0 B0. destruct (is_nan ratio) eqn:NR.
    - unfold maybe_update. rewrite (distance_nan pos _ _ ratio NR). cbn [fltb fltinf ieee]. destruct b0 as [[p d]|]; [rewrite ltb_nan_l|]; exact B0.
    - destruct b0 as [[p d]|]; cbn [maybe_update]; [destruct (fltb _ d)|destruct (fltinf _)]; cbn; auto. }
  destruct (fltb (vdot _ _) f0); (eapply IH; [| |exact H]); auto.
Qed.

Lemma closest_ratio : forall pos raw b, ratio_ok b -> ratio_ok (@project_closest_loop AI pos raw b).
Proof.
  intros pos. induction raw as [|a raw IH]; intros b B; [exact B|]. destruct raw as [|c rest]; [exact B|].
  cbn [project_closest_loop]. apply IH.
  destruct (is_nan (nearest_point_on_segment (r_pos a) (r_pos c) pos)) eqn:NR.
  - rewrite (distance_nan pos _ _ _ NR). cbn [fleb fleinf ieee]. destruct b as [[p d]|]; [rewrite leb_nan_l|]; exact B.
  - destruct (match b with Some _ => _ | None => _ end); [exact NR|exact B].
Qed.

Lemma projection_ratio : forall sm tip n p, @query_projection AI sm tip n = Some p -> is_nan (pj_ratio p) = false.
Proof.
  intros sm tip n p H. unfold query_projection in H.
  destruct (if sy_normal (sm_params sm) then n else None) as [nn|].
  - unfold project_along_normal in H. destruct (project_normal_loop _ _ _ _ _) as [l r] eqn:E.
    apply normal_ratio in E; [|exact I|exact I].
    destruct E as [E1 E2]. destruct l as [[l dl]|], r as [[r dr]|]; cbn in E1, E2; try discriminate H.
    + destruct (fltb _ _); inversion H; subst; assumption.
    + inversion H; subst; assumption.
    + inversion H; subst; assumption.
  - unfold project_to_closest in H. pose proof (closest_ratio (t_pos tip) (s_raw (sm_state sm)) None I) as K.
    destruct (project_closest_loop _ _ _) as [[q d]|]; inversion H; subst. exact K.
Qed.

(** ** Pressure *)
Definition unit_pressure (i : @Input AI) : Prop :=
  @fleb AI (@f0 AI) (i_pressure i) = true /\ @fleb AI (i_pressure i) (@f1 AI) = true.

Definition SP (st : @SState AI) : Prop :=
  s_unk_pressure st = false /\ s_raw st <> [] /\ Forall (fun r : @Result AI => unit32 (r_pressure r)) (s_raw st).

Lemma unit_not_lt0 : forall x, unit32 x -> @fltb AI x (@f0 AI) = false.
Proof. intros x (F & B). cbn [fltb ieee]. rewrite f0_eq. apply ltb_false_R; [exact F|reflexivity|]. cbn. lra. Qed.
Lemma unit_not_nan : forall x, unit32 x -> is_nan x = false.
Proof. intros x (F & _). destruct x; try discriminate F; reflexivity. Qed.
Lemma unit_known : forall x, unit32 x -> @unknown AI x = false.
Proof. intros x U. unfold unknown. rewrite (unit_not_lt0 x U). cbn [fisnan ieee orb]. apply unit_not_nan; exact U. Qed.

Lemma trim_suffix : forall {A : Arith} p raw raw', stylus_trim p raw = Ret raw' -> exists pre, raw = pre ++ raw'.
Proof.
  intros A p. induction raw as [|a rest IH]; intros raw' H; cbn [stylus_trim] in H; bind_inv H; destruct x; try discriminate H.
  - inversion H; subst. exists []. reflexivity.
  - apply IH in H. destruct H as [pre ->]. exists (a :: pre). reflexivity.
  - inversion H; subst. exists []. reflexivity.
Qed.
Lemma trim_last : forall {A : Arith} p raw raw' x, stylus_trim p (raw ++ [x]) = Ret raw' -> sy_normal p = true \/ 0 < sy_max_samples p ->
  raw' <> [].
Proof.
  intros A p. induction raw as [|a rest IH]; intros raw' x H V.
  - cbn [app] in H. cbn [stylus_trim] in H. bind_inv H. destruct x0; [|inversion H; discriminate].
    exfalso. bind_inv H. destruct x0; [discriminate H|]. inversion H; subst. clear H E0.
    unfold should_drop in E. destruct (sy_normal p) eqn:N.
    + destruct (size_gt [x] (sy_min_samples p)); [|discriminate E]. cbn in E. discriminate E.
    + destruct V as [V|V]; [discriminate V|]. inversion E as [K]. unfold size_gt in K. cbn in K.
      destruct (Z.ltb_spec (sy_max_samples p) 0); [lia|]. apply Z.ltb_lt in K. lia.
  - cbn [app] in H. cbn [stylus_trim] in H. bind_inv H. destruct x0; [eapply IH; eassumption|].
    inversion H; discriminate.
Qed.


Lemma raw_step : forall {A : Arith} sm pos t pr ti o sm',
  validate_stylus (sm_params sm) = OkStatus ->
  stylus_update sm pos t pr ti o = Ret sm' ->
  (s_raw (sm_state sm') = [] /\ s_unk_pressure (sm_state sm') = true /\ s_unk_tilt (sm_state sm') = true /\
     s_unk_orient (sm_state sm') = true) \/
  (s_raw (sm_state sm') <> [] /\ exists x pre, s_raw (sm_state sm) ++ [x] = pre ++ s_raw (sm_state sm') /\
     r_pos x = pos /\ r_time x = t /\ r_pressure x = pr /\ r_tilt x = ti /\ r_orient x = o).
Proof.
  intros A sm pos t pr ti o sm' V H. unfold stylus_update in H.
  destruct (negb (sy_normal (sm_params sm)) && _ && _ && _) eqn:E.
  - inversion H; subst. cbn. apply andb_prop in E. destruct E as [E E3]. apply andb_prop in E. destruct E as [E E2].
    apply andb_prop in E. destruct E as [E E1]. auto.
  - destruct (match back (s_raw (sm_state sm)) with Some _ => _ | None => _ end) as [v a].
    bind_inv H. inversion H; subst. cbn. right. split.
    + eapply trim_last; [exact E0|]. unfold validate_stylus in V. destruct (sy_normal (sm_params sm)); [left; reflexivity|right].
      unfold validate_gt0_i in V. destruct (Z.leb_spec (sy_max_samples (sm_params sm)) 0); [discriminate V|assumption].
    + apply trim_suffix in E0. destruct E0 as [pre E0]. eexists. exists pre. split; [exact E0|]. auto 10.
Qed.

Lemma SP_step : forall sm i pos sm',
  unit_pressure i -> validate_stylus (sm_params sm) = OkStatus -> (SP (sm_state sm) \/ sm_state sm = sstate0) ->
  @stylus_update AI sm pos (i_time i) (i_pressure i) (i_tilt i) (i_orient i) = Ret sm' -> SP (sm_state sm').
Proof.
  intros sm i pos sm' UP V H U. apply unit_iff in UP.
  pose proof (stylus_update_flags _ _ _ _ _ _ _ U) as (F1 & _). rewrite (unit_known _ UP) in F1.
  assert (FL : s_unk_pressure (sm_state sm') = false).
  { rewrite F1. destruct H as [(H & _)|H]; rewrite H; reflexivity. }
  destruct (raw_step _ _ _ _ _ _ _ V U) as [(_ & K & _)|(NE & x & pre & EQ & _ & _ & PX & _)]; [congruence|].
  split; [exact FL|]. split; [exact NE|].
  assert (FA : Forall (fun r : @Result AI => unit32 (r_pressure r)) (s_raw (sm_state sm) ++ [x])).
  { apply Forall_app. split.
    - destruct H as [(_ & _ & H)|H]; [exact H|rewrite H; constructor].
    - constructor; [rewrite PX; exact UP|constructor]. }
  rewrite EQ in FA. apply Forall_app in FA. apply FA.
Qed.

Lemma interp_result_pressure : forall fuel a b x r, @interp_result AI fuel a b x = Ret r ->
  unit32 (r_pressure a) -> unit32 (r_pressure b) ->
  r_pressure r = @interp_f AI (r_pressure a) (r_pressure b) x.
Proof.
  intros fuel a b x r H UA UB. apply interp_result_inv in H. destruct H as (_ & _ & _ & _ & H & _). rewrite H.
  rewrite (unit_not_lt0 _ UA), (unit_not_lt0 _ UB). reflexivity.
Qed.

Lemma query_pressure : forall fuel sm tip n r, SP (sm_state sm) -> @stylus_query AI fuel sm tip n = Ret r ->
  unit32 (r_pressure r).
Proof.
  intros fuel sm tip n r (FL & NE & FA) H. rewrite Forall_forall in FA.
  destruct (query_eq fuel sm tip n) as [[K _]|(_ & o & E & [(p & P & ->)|(_ & x & IN & ->)])]; [congruence| |].
  - rewrite E in H. bind_inv H. apply ret_inj in H. subst r. cbn [with_flags r_pressure r_orient]. rewrite FL.
    pose proof (query_projection_in _ _ _ _ P) as [IA IB].
    rewrite (interp_result_pressure _ _ _ _ _ E0 (FA _ IA) (FA _ IB)).
    apply interp_unit; [exact (FA _ IA)|exact (FA _ IB)|]. eapply projection_ratio; exact P.
  - rewrite E in H. cbn [obind] in H. apply ret_inj in H. subst r. cbn [with_flags r_pressure r_orient]. rewrite FL. apply FA. exact IN.
Qed.

Lemma made_pressure : forall fuel sm lp r, SP (sm_state sm) -> @made_from AI fuel sm lp r ->
  unit32 (r_pressure r) \/ (lp_enabled lp = true /\ is_nan (r_pressure r) = true).
Proof.
  intros fuel sm lp r S (tip & n & samples & pj & Q & E). apply query_pressure in Q; [|exact S].
  assert (UT : unit32 (r_pressure (@make_result AI tip pj))) by exact Q.
  rewrite (interp_result_pressure _ _ _ _ _ E Q UT).
  destruct (is_nan (@loop_value AI lp samples)) eqn:N.
  - destruct (lp_enabled lp) eqn:EN; [right; split; [reflexivity|apply interp_nan; exact N]|].
    rewrite (loop_value_off lp samples EN) in N. discriminate N.
  - left. apply interp_unit; assumption.
Qed.

(** ** Orientation *)
Definition SO (st : @SState AI) : Prop :=
  s_unk_orient st = false -> Forall (fun r : @Result AI => is_nan (r_orient r : float32) = false) (s_raw st).

Lemma SO_step : forall sm i pos sm',
  True -> validate_stylus (sm_params sm) = OkStatus -> (SO (sm_state sm) \/ sm_state sm = sstate0) ->
  @stylus_update AI sm pos (i_time i) (i_pressure i) (i_tilt i) (i_orient i) = Ret sm' -> SO (sm_state sm').
Proof.
  intros sm i pos sm' _ V H U FL. pose proof (stylus_update_flags _ _ _ _ _ _ _ U) as (_ & _ & F1).
  rewrite FL in F1. symmetry in F1. apply orb_false_elim in F1. destruct F1 as [F1 F2].
  unfold unknown in F2. apply orb_false_elim in F2. destruct F2 as [_ F2]. cbn [fisnan ieee] in F2.
  destruct (raw_step _ _ _ _ _ _ _ V U) as [(K & _)|(NE & x & pre & EQ & _ & _ & _ & _ & PX)]; [rewrite K; constructor|].
  assert (FA : Forall (fun r : @Result AI => is_nan (r_orient r : float32) = false) (s_raw (sm_state sm) ++ [x])).
  { apply Forall_app. split.
    - destruct H as [H|H]; [apply H; exact F1|rewrite H; constructor].
    - constructor; [rewrite PX; exact F2|constructor]. }
  rewrite EQ in FA. apply Forall_app in FA. apply FA.
Qed.

Lemma fm1_not_nan : is_nan (@fm1 AI : float32) = false.
Proof. destruct (fm1_fin acosf) as [K _]. destruct (@fm1 AI); try discriminate K; reflexivity. Qed.

Lemma interp_result_orient : forall fuel a b x r, @interp_result AI fuel a b x = Ret r ->
  r_orient r = @fm1 AI \/ in_turn (r_orient r) \/
  (is_nan (r_orient r : float32) = true /\
   (is_nan (r_orient a : float32) = true \/ is_nan (r_orient b : float32) = true \/ is_nan (x : float32) = true)).
Proof.
  intros fuel a b x r H. apply interp_result_inv in H. destruct H as (_ & _ & _ & _ & _ & _ & E).
  destruct (_ || _) in E; [left; apply ret_inj in E; congruence|]. right. apply interp_angle_ret in E. destruct E as [E1 E2].
  destruct E1 as [E1|E1]; [|left; exact E1].
  destruct (is_nan (r_orient a : float32)) eqn:NA; [right; auto|].
  destruct (is_nan (r_orient b : float32)) eqn:NB; [right; auto|].
  destruct (is_nan (x : float32)) eqn:NX; [right; auto|]. left. auto.
Qed.

Lemma in_turn_not_nan : forall x, in_turn x -> is_nan x = false.
Proof. intros x (F & _). destruct x; try discriminate F; reflexivity. Qed.

Lemma query_orient : forall fuel sm tip n r, SO (sm_state sm) -> @stylus_query AI fuel sm tip n = Ret r ->
  is_nan (r_orient r : float32) = false.
Proof.
  intros fuel sm tip n r S H.
  destruct (query_eq fuel sm tip n) as [[_ K]|(_ & o & E & [(p & P & ->)|(_ & x & IN & ->)])].
  - rewrite K in H. apply ret_inj in H. subst r. exact fm1_not_nan.
  - rewrite E in H. bind_inv H. apply ret_inj in H. subst r. cbn [with_flags r_pressure r_orient].
    destruct (s_unk_orient (sm_state sm)) eqn:FL; [exact fm1_not_nan|]. specialize (S FL). rewrite Forall_forall in S.
    pose proof (query_projection_in _ _ _ _ P) as [IA IB]. pose proof (projection_ratio _ _ _ _ P) as R.
    destruct (interp_result_orient _ _ _ _ _ E0) as [K|[K|(_ & [K|[K|K]])]].
    + rewrite K. exact fm1_not_nan.
    + apply in_turn_not_nan; exact K.
    + rewrite (S _ IA) in K. discriminate K.
    + rewrite (S _ IB) in K. discriminate K.
    + rewrite R in K. discriminate K.
  - rewrite E in H. cbn [obind] in H. apply ret_inj in H. subst r. cbn [with_flags r_pressure r_orient].
    destruct (s_unk_orient (sm_state sm)) eqn:FL; [exact fm1_not_nan|]. specialize (S FL). rewrite Forall_forall in S.
    apply S. exact IN.
Qed.

(** Orientation -1, or in [0, 2 pi). *)
Definition orientation_in_range (o : float32) : Prop :=
  o = @fm1 AI \/ (is_finite o = true /\ (0 <= B2R o < 2 * B2R b_pi)%R).

Lemma made_orient : forall fuel sm lp r, SO (sm_state sm) -> @made_from AI fuel sm lp r ->
  orientation_in_range (r_orient r) \/ (lp_enabled lp = true /\ is_nan (r_orient r : float32) = true).
Proof.
  intros fuel sm lp r S (tip & n & samples & pj & Q & E). apply query_orient in Q; [|exact S].
  destruct (interp_result_orient _ _ _ _ _ E) as [K|[K|(K & D)]].
  - left; left; exact K.
  - left; right. split; [apply K|]. split; [apply K|]. apply in_turn_lt. exact K.
  - right. split; [|exact K]. destruct D as [D|[D|D]]; [congruence|cbn in D; congruence|].
    destruct (lp_enabled lp) eqn:EN; [reflexivity|]. rewrite (loop_value_off lp samples EN) in D. discriminate D.
Qed.

(** ** Termination *)
Definition fine (o : float32) : Prop := @fltb AI o (@f0 AI) = true \/ angle_ok o.
Definition ST (st : @SState AI) : Prop := Forall (fun r : @Result AI => fine (r_orient r)) (s_raw st).
(** An orientation in [0, (float)(2 pi)], or unknown. *)
Definition orientation_acceptable (i : @Input AI) : Prop :=
  @unknown AI (i_orient i) = true \/
  (@fleb AI (@f0 AI) (i_orient i) = true /\ @fleb AI (i_orient i) (@d2f AI (@twoPi AI)) = true).

Lemma d2f_twoPi : is_finite (@d2f AI (@twoPi AI)) = true /\ B2R (@d2f AI (@twoPi AI)) = U2pi.
Proof.
  assert (E : B2SF (@d2f AI (@twoPi AI)) = SpecFloat.S754_finite false 13176795 (-21)) by (vm_compute; reflexivity).
  split.
  - destruct (@d2f AI (@twoPi AI)); try discriminate E; reflexivity.
  - rewrite <- SF2R_B2SF, E. unfold SF2R, F2R, U2pi. cbn [cond_Zopp Fnum Fexp].
    change (bpow radix2 (-21)) with (/ 2097152)%R. lra.
Qed.

Lemma acceptable_fine : forall i, orientation_acceptable i -> fine (i_orient i).
Proof.
  intros i [H|[H1 H2]].
  - unfold unknown in H. apply orb_prop in H. destruct H as [H|H]; [left; exact H|right; left; exact H].
  - right; right. destruct d2f_twoPi as [FU EU]. cbn [fleb ieee] in H1, H2. rewrite f0_eq in H1. apply leb_nonneg in H1.
    pose proof (le_finite 24 128 _ _ H1 FU H2) as F. apply leb_R in H2; [|exact F|exact FU]. rewrite EU in H2.
    split; [exact F|]. split; [|exact H2]. destruct (i_orient i); try discriminate F; exact H1.
Qed.

Lemma ST_step : forall sm i pos sm',
  orientation_acceptable i -> validate_stylus (sm_params sm) = OkStatus -> (ST (sm_state sm) \/ sm_state sm = sstate0) ->
  @stylus_update AI sm pos (i_time i) (i_pressure i) (i_tilt i) (i_orient i) = Ret sm' -> ST (sm_state sm').
Proof.
  intros sm i pos sm' HI V H U. unfold ST.
  destruct (raw_step _ _ _ _ _ _ _ V U) as [(K & _)|(NE & x & pre & EQ & _ & _ & _ & _ & PX)]; [rewrite K; constructor|].
  assert (FA : Forall (fun r : @Result AI => fine (r_orient r)) (s_raw (sm_state sm) ++ [x])).
  { apply Forall_app. split.
    - destruct H as [H|H]; [exact H|rewrite H; constructor].
    - constructor; [rewrite PX; apply acceptable_fine; exact HI|constructor]. }
  rewrite EQ in FA. apply Forall_app in FA. apply FA.
Qed.

Lemma fm1_fine : fine (@fm1 AI).
Proof. left. exact (fm1_neg acosf). Qed.
Lemma turn_fine : forall o, is_nan o = true \/ in_turn o -> fine o.
Proof.
  intros o [N|(F & B)]; right; [left; exact N|right]. pose proof turn_order. split; [exact F|lra].
Qed.

Lemma interp_result_stop : forall fuel (a b : @Result AI) x, fine (r_orient a) -> fine (r_orient b) ->
  exists r, @interp_result AI (S fuel) a b x = Ret r /\ fine (r_orient r).
Proof.
  intros fuel a b x HA HB. unfold interp_result.
  destruct (@fltb AI (r_orient a) (@f0 AI)) eqn:LA; [eexists; split; [reflexivity|exact fm1_fine]|].
  destruct (@fltb AI (r_orient b) (@f0 AI)) eqn:LB; [eexists; split; [reflexivity|exact fm1_fine]|].
  cbn [orb]. destruct HA as [HA|HA]; [congruence|]. destruct HB as [HB|HB]; [congruence|].
  destruct (interp_angle_stop acosf fuel (r_orient a) (r_orient b) x HA HB) as [o E]. rewrite E. cbn [obind].
  eexists. split; [reflexivity|]. cbn [r_orient]. apply turn_fine. apply interp_angle_ret in E. apply E.
Qed.

Lemma query_stop : forall fuel sm tip n, ST (sm_state sm) ->
  exists r, @stylus_query AI (S fuel) sm tip n = Ret r /\ fine (r_orient r).
Proof.
  intros fuel sm tip n H. unfold ST in H. rewrite Forall_forall in H.
  assert (W : forall res : @Result AI, fine (r_orient res) -> fine (r_orient (@with_flags AI (sm_state sm) (t_time tip) res))).
  { intros res F. cbn. destruct (s_unk_orient _); [exact fm1_fine|exact F]. }
  destruct (query_eq (S fuel) sm tip n) as [[_ K]|(_ & o & E & [(p & P & ->)|(_ & x & IN & ->)])].
  - rewrite K. eexists. split; [reflexivity|exact fm1_fine].
  - pose proof (query_projection_in _ _ _ _ P) as [IA IB].
    destruct (interp_result_stop fuel _ _ (pj_ratio p) (H _ IA) (H _ IB)) as (r & R & FR).
    rewrite E, R. cbn [obind]. eexists. split; [reflexivity|auto].
  - rewrite E. cbn [obind]. eexists. split; [reflexivity|]. apply W. apply H. exact IN.
Qed.

Lemma model_stylus_stop : forall fuel tips sm lm pt, ST (sm_state sm) ->
  nodiv (@model_stylus AI (S fuel) tips sm lm pt).
Proof.
  intros fuel tips sm lm pt H. unfold model_stylus. generalize (@loop_get AI lm). revert lm pt.
  induction tips as [|tip rest IH]; intros lm pt v; [discriminate|]. cbn [model_stylus_loop].
  destruct (query_stop fuel sm tip (get_stroke_normal tip pt) H) as (q & Q & FQ). rewrite Q. cbn [obind].
  destruct (interp_result_stop fuel q (make_result tip q) v FQ FQ) as (r & R & _). rewrite R. cbn [obind].
  destruct (loop_update lm (r_vel r) (t_time tip)) as [lm' v']. apply nodiv_bind; [apply IH|].
  intros [lm'' out] _. discriminate.
Qed.

End Range.

(** ** The theorems *)

(** C27.  After an accepted Down with pressure in [0, 1], and any calls whose
    inputs (accepted or not) all have pressure in [0, 1], every result of a Move
    or Up with pressure in [0, 1] has pressure in [0, 1], when loop mitigation is
    off in the parameters in force. *)
Definition pressure_in_unit {A : Arith} (r : Result) : Prop :=
  fleb f0 (r_pressure r) = true /\ fleb (r_pressure r) f1 = true.

Theorem C27_pressure_in_range_update : forall acosf (A := ieee acosf) fuel h0 d rs0 out0 mid s p i rs out,
  i_event d = EDown -> unit_pressure acosf d ->
  answers fuel h0 [CUpdate d rs0] = Ret [RResults OkStatus out0] ->
  Forall (call_ok (unit_pressure acosf)) mid ->
  after fuel (h0 ++ CUpdate d rs0 :: mid) s -> ps_params s = Some p -> lp_enabled (pp_loop (p_position p)) = false ->
  unit_pressure acosf i -> i_event i <> EDown ->
  answers fuel (h0 ++ CUpdate d rs0 :: mid) [CUpdate i rs] = Ret [RResults OkStatus (rs ++ out)] ->
  Forall pressure_in_unit out.
Proof.
  intros acosf A fuel h0 d rs0 out0 mid s p i rs out ED UD AD FM AF PP EN UI ND AN.
  destruct (after_full fuel _ _ AF) as (m & r & R & T & _ & _).
  pose proof (since_down_ok fuel _ _ (SP_step acosf) _ _ _ _ _ _ _ ED UD AD FM R) as K.
  destruct (update_made fuel _ _ (SP_step acosf) _ _ _ _ _ _ R K UI ND AN) as (q & sm & MP & SS & _ & MA).
  destruct T as (T1 & _). rewrite PP in T1.
  assert (q = p) by (pose proof (eq_trans T1 MP) as T2; inversion T2; reflexivity). subst q. eapply Forall_impl; [|exact MA]. intros x MX.
  destruct (made_pressure acosf fuel sm _ x SS MX) as [U|[U _]]; [apply unit_iff; exact U|discriminate (eq_trans (eq_sym U) EN)].
Qed.

Theorem C27_pressure_in_range_predict : forall acosf (A := ieee acosf) fuel h0 d rs0 out0 mid s p rs out,
  i_event d = EDown -> unit_pressure acosf d ->
  answers fuel h0 [CUpdate d rs0] = Ret [RResults OkStatus out0] ->
  Forall (call_ok (unit_pressure acosf)) mid ->
  after fuel (h0 ++ CUpdate d rs0 :: mid) s -> ps_params s = Some p -> lp_enabled (pp_loop (p_position p)) = false ->
  answers fuel (h0 ++ CUpdate d rs0 :: mid) [CPredict rs] = Ret [RResults OkStatus out] ->
  Forall pressure_in_unit out.
Proof.
  intros acosf A fuel h0 d rs0 out0 mid s p rs out ED UD AD FM AF PP EN AN.
  destruct (after_full fuel _ _ AF) as (m & r & R & T & _ & _).
  pose proof (since_down_ok fuel _ _ (SP_step acosf) _ _ _ _ _ _ _ ED UD AD FM R) as K.
  destruct (predict_made fuel (SP acosf) _ _ _ _ _ R K AN) as (q & sm & MP & SS & _ & MA).
  destruct T as (T1 & _). rewrite PP in T1.
  assert (q = p) by (pose proof (eq_trans T1 MP) as T2; inversion T2; reflexivity). subst q. eapply Forall_impl; [|exact MA]. intros x MX.
  destruct (made_pressure acosf fuel sm _ x SS MX) as [U|[U _]]; [apply unit_iff; exact U|discriminate (eq_trans (eq_sym U) EN)].
Qed.

(** With loop mitigation on: in [0, 1], or not a number. *)
Theorem C27_pressure_in_range_update_partial : forall acosf (A := ieee acosf) fuel h0 d rs0 out0 mid i rs out,
  i_event d = EDown -> unit_pressure acosf d ->
  answers fuel h0 [CUpdate d rs0] = Ret [RResults OkStatus out0] ->
  Forall (call_ok (unit_pressure acosf)) mid ->
  unit_pressure acosf i -> i_event i <> EDown ->
  answers fuel (h0 ++ CUpdate d rs0 :: mid) [CUpdate i rs] = Ret [RResults OkStatus (rs ++ out)] ->
  Forall (fun r => pressure_in_unit r \/ fisnan (r_pressure r) = true) out.
Proof.
  intros acosf A fuel h0 d rs0 out0 mid i rs out ED UD AD FM UI ND AN.
  pose proof AN as AN2. apply answers1 in AN2. destruct AN2 as (m & r & _ & _ & R & _).
  pose proof (since_down_ok fuel _ _ (SP_step acosf) _ _ _ _ _ _ _ ED UD AD FM R) as K.
  destruct (update_made fuel _ _ (SP_step acosf) _ _ _ _ _ _ R K UI ND AN) as (q & sm & MP & SS & _ & MA).
  eapply Forall_impl; [|exact MA]. intros x MX.
  destruct (made_pressure acosf fuel sm _ x SS MX) as [U|[_ U]]; [left; apply unit_iff; exact U|right; exact U].
Qed.

Theorem C27_pressure_in_range_predict_partial : forall acosf (A := ieee acosf) fuel h0 d rs0 out0 mid rs out,
  i_event d = EDown -> unit_pressure acosf d ->
  answers fuel h0 [CUpdate d rs0] = Ret [RResults OkStatus out0] ->
  Forall (call_ok (unit_pressure acosf)) mid ->
  answers fuel (h0 ++ CUpdate d rs0 :: mid) [CPredict rs] = Ret [RResults OkStatus out] ->
  Forall (fun r => pressure_in_unit r \/ fisnan (r_pressure r) = true) out.
Proof.
  intros acosf A fuel h0 d rs0 out0 mid rs out ED UD AD FM AN.
  pose proof AN as AN2. apply answers1 in AN2. destruct AN2 as (m & r & _ & _ & R & _).
  pose proof (since_down_ok fuel _ _ (SP_step acosf) _ _ _ _ _ _ _ ED UD AD FM R) as K.
  destruct (predict_made fuel (SP acosf) _ _ _ _ _ R K AN) as (q & sm & MP & SS & _ & MA).
  eapply Forall_impl; [|exact MA]. intros x MX.
  destruct (made_pressure acosf fuel sm _ x SS MX) as [U|[_ U]]; [left; apply unit_iff; exact U|right; exact U].
Qed.

(** C28.  Whatever happened before, with loop mitigation off. *)
Theorem C28_orientation_in_range_update : forall acosf (A := ieee acosf) fuel hist s p i rs out,
  after fuel hist s -> ps_params s = Some p -> lp_enabled (pp_loop (p_position p)) = false ->
  i_event i <> EDown ->
  answers fuel hist [CUpdate i rs] = Ret [RResults OkStatus (rs ++ out)] ->
  Forall (fun r : @Result A => orientation_in_range acosf (r_orient r)) out.
Proof.
  intros acosf A fuel hist s p i rs out AF PP EN ND AN.
  destruct (after_full fuel _ _ AF) as (m & r & R & T & _ & _).
  assert (K : stylus_ok (SO acosf) m).
  { eapply (stylus_ok_run fuel (fun _ => True) (SO acosf) (SO_step acosf)); [exact good0|exact cons0| | |exact R].
    - split; [intros _; constructor|discriminate].
    - apply Forall_forall. intros [] _; exact I. }
  destruct (update_made fuel (fun _ => True) _ (SO_step acosf) _ _ _ _ _ _ R K I ND AN) as (q & sm & MP & SS & _ & MA).
  destruct T as (T1 & _). rewrite PP in T1.
  assert (q = p) by (pose proof (eq_trans T1 MP) as T2; inversion T2; reflexivity). subst q. eapply Forall_impl; [|exact MA]. intros x MX.
  destruct (made_orient acosf fuel sm _ x SS MX) as [U|[U _]]; [exact U|discriminate (eq_trans (eq_sym U) EN)].
Qed.

Theorem C28_orientation_in_range_predict : forall acosf (A := ieee acosf) fuel hist s p rs out,
  after fuel hist s -> ps_params s = Some p -> lp_enabled (pp_loop (p_position p)) = false ->
  answers fuel hist [CPredict rs] = Ret [RResults OkStatus out] ->
  Forall (fun r : @Result A => orientation_in_range acosf (r_orient r)) out.
Proof.
  intros acosf A fuel hist s p rs out AF PP EN AN.
  destruct (after_full fuel _ _ AF) as (m & r & R & T & _ & _).
  assert (K : stylus_ok (SO acosf) m).
  { eapply (stylus_ok_run fuel (fun _ => True) (SO acosf) (SO_step acosf)); [exact good0|exact cons0| | |exact R].
    - split; [intros _; constructor|discriminate].
    - apply Forall_forall. intros [] _; exact I. }
  destruct (predict_made fuel (SO acosf) _ _ _ _ _ R K AN) as (q & sm & MP & SS & _ & MA).
  destruct T as (T1 & _). rewrite PP in T1.
  assert (q = p) by (pose proof (eq_trans T1 MP) as T2; inversion T2; reflexivity). subst q. eapply Forall_impl; [|exact MA]. intros x MX.
  destruct (made_orient acosf fuel sm _ x SS MX) as [U|[U _]]; [exact U|discriminate (eq_trans (eq_sym U) EN)].
Qed.

(** With loop mitigation on: in range, or not a number. *)
Theorem C28_orientation_in_range_update_partial : forall acosf (A := ieee acosf) fuel hist i rs out,
  i_event i <> EDown ->
  answers fuel hist [CUpdate i rs] = Ret [RResults OkStatus (rs ++ out)] ->
  Forall (fun r : @Result A => orientation_in_range acosf (r_orient r) \/ fisnan (r_orient r) = true) out.
Proof.
  intros acosf A fuel hist i rs out ND AN.
  pose proof AN as AN2. apply answers1 in AN2. destruct AN2 as (m & r & _ & _ & R & _).
  assert (K : stylus_ok (SO acosf) m).
  { eapply (stylus_ok_run fuel (fun _ => True) (SO acosf) (SO_step acosf)); [exact good0|exact cons0| | |exact R].
    - split; [intros _; constructor|discriminate].
    - apply Forall_forall. intros [] _; exact I. }
  destruct (update_made fuel (fun _ => True) _ (SO_step acosf) _ _ _ _ _ _ R K I ND AN) as (q & sm & MP & SS & _ & MA).
  eapply Forall_impl; [|exact MA]. intros x MX.
  destruct (made_orient acosf fuel sm _ x SS MX) as [U|[_ U]]; [left; exact U|right; exact U].
Qed.

Theorem C28_orientation_in_range_predict_partial : forall acosf (A := ieee acosf) fuel hist rs out,
  answers fuel hist [CPredict rs] = Ret [RResults OkStatus out] ->
  Forall (fun r : @Result A => orientation_in_range acosf (r_orient r) \/ fisnan (r_orient r) = true) out.
Proof.
  intros acosf A fuel hist rs out AN.
  pose proof AN as AN2. apply answers1 in AN2. destruct AN2 as (m & r & _ & _ & R & _).
  assert (K : stylus_ok (SO acosf) m).
  { eapply (stylus_ok_run fuel (fun _ => True) (SO acosf) (SO_step acosf)); [exact good0|exact cons0| | |exact R].
    - split; [intros _; constructor|discriminate].
    - apply Forall_forall. intros [] _; exact I. }
  destruct (predict_made fuel (SO acosf) _ _ _ _ _ R K AN) as (q & sm & MP & SS & _ & MA).
  eapply Forall_impl; [|exact MA]. intros x MX.
  destruct (made_orient acosf fuel sm _ x SS MX) as [U|[_ U]]; [left; exact U|right; exact U].
Qed.

(** C46.  The two loops of the angle normalisation run at most once each. *)
Theorem C46_terminates : forall acosf (A := ieee acosf) fuel hist,
  (1 <= fuel)%nat -> Forall (call_ok (orientation_acceptable acosf)) hist ->
  answers fuel [] hist <> Diverge.
Proof.
  intros acosf A fuel hist HF FA. destruct fuel as [|fuel]; [lia|].
  unfold answers. cbn [run obind]. apply nodiv_bind.
  - eapply (run_nodiv (S fuel) _ _ (ST_step acosf)); [|exact good0|exact cons0| |exact FA].
    + intros tips sm lm pt. apply model_stylus_stop.
    + split; [constructor|discriminate].
  - intros [m rs] _. discriminate.
Qed.
