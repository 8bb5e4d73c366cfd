(** * C06, C08, C09, C23 in IEEE arithmetic. *)
From Coq Require Import ZArith Bool List Sorted Reals Lra Lia Psatz String.
From Flocq Require Import Core.Core IEEE754.BinarySingleNaN Sterbenz.
From Verif Require Export Props_Valid Props_Count.
Import ListNotations.
Open Scope R_scope.

Lemma some_inj : forall {X} (x y : X), Some x = Some y -> x = y.
Proof. intros X x y H. injection H. auto. Qed.

(** ** C09 *)
(** What makes an input malformed. *)
Definition malformed (acosf : float32 -> float32) (i : Input (A := ieee acosf)) : Prop :=
  i_event i <> EDown /\ i_event i <> EMove /\ i_event i <> EUp \/
  is_finite (vx (i_pos i) : float32) = false \/ is_finite (vy (i_pos i) : float32) = false \/ is_finite (i_time i : float64) = false.

Lemma malformed_iff : forall acosf (i : Input (A := ieee acosf)), validate_input i <> OkStatus <-> malformed acosf i.
Proof.
  intros acosf i. unfold malformed, validate_input.
  assert (K : and_then (validate_finite_f (vx (i_pos i)) "Input.position.x")
    (and_then (validate_finite_f (vy (i_pos i)) "Input.position.y") (validate_finite_d (i_time i) "Input.time")) = OkStatus <->
    finite (vx (i_pos i) : float32) /\ finite (vy (i_pos i) : float32) /\ finite (i_time i : float64)).
  { rewrite !Props_Valid.and_then_ok, !finite_f_iff, finite_d_iff. reflexivity. }
  unfold finite in K. destruct (i_event i).
  1-3: rewrite K; destruct (is_finite (vx (i_pos i) : float32)), (is_finite (vy (i_pos i) : float32)), (is_finite (i_time i : float64));
    split; intros H; try (intros (? & ? & ?)); try tauto; try discriminate;
    destruct H as [(? & ? & ?)|[?|[?|?]]]; congruence.
  split; [intros _; left; repeat split; discriminate|intros _; discriminate].
Qed.

(** A malformed input is rejected with InvalidArgument, and no later call can tell
    that it was ever offered. *)
Theorem C09_malformed_rejected : forall acosf (A := ieee acosf) fuel hist s p i rs,
  after fuel hist s -> ps_params s = Some p -> malformed acosf i ->
  (exists msg, answers fuel hist [CUpdate i rs] = Ret [RResults (InvalidArgument msg) rs]) /\
  indistinguishable fuel (hist ++ [CUpdate i rs]) hist.
Proof.
  intros acosf A fuel hist s p i rs AF P M. subst A. apply malformed_iff in M.
  exact (C09_invalid_input_rejected fuel hist s p i rs AF P M).
Qed.

(** ** C06: a Move that moves time on *)
(** At least [c], possibly infinite. *)
Definition from {p e} (c : R) (x : binary_float p e) : Prop := nonneg p e x /\ (is_finite x = true -> c <= B2R x).

Lemma from_minus : forall (x y : float64) c, is_finite x = true -> is_finite y = true -> 0 <= c -> fmt64 c -> c <= B2R x - B2R y ->
  from c (Bminus mode_NE x y).
Proof.
  intros x y c FX FY C0 FC L. split; [apply minus_nonneg; try assumption; try reflexivity; lra|]. intros FM.
  pose proof (Bminus_correct 53 1024 _ _ mode_NE x y FX FY) as K.
  destruct (Rlt_bool_spec (Rabs (round radix2 (SpecFloat.fexp 53 1024) (round_mode mode_NE) (B2R x - B2R y))) (bpow radix2 1024)) as [S|S].
  - destruct K as (K & _). rewrite K. change (c <= r64 (B2R x - B2R y)). apply rnd_ge_fmt; [reflexivity|exact FC|exact L].
  - destruct K as (K & _). rewrite overflow_NE in K. apply B2SF_inf in K. rewrite K in FM. discriminate FM.
Qed.
Lemma from_d2f : forall (x : float64) c, from c x -> 0 <= c -> fmt32 c -> from c (b64_to_b32 x).
Proof.
  intros x c [N L] C0 FC. split; [apply d2f_nonneg; exact N|]. intros FM.
  destruct (is_finite x) eqn:FX.
  - destruct (Rlt_le_dec (Rabs (r32 (B2R x))) (bpow radix2 128)) as [S|S].
    + destruct (d2f_fin x FX S) as [_ ->]. apply rnd_ge_fmt; [reflexivity|exact FC|apply L; reflexivity].
    + rewrite d2f_over in FM; [discriminate FM|exact FX|unfold small; lra].
  - destruct x; try discriminate FX; discriminate FM.
Qed.
Lemma from_f2d : forall (x : float32) c, from c x -> from c (b32_to_b64 x).
Proof.
  intros x c [N L]. split; [apply f2d_nonneg; exact N|]. rewrite f2d_finite. intros F.
  destruct (f2d_fin x F) as [_ ->]. apply L. exact F.
Qed.
Lemma from_mult : forall (x y : float64) c d, from c x -> is_finite y = true -> d <= B2R y -> 0 <= c -> 0 < d -> fmt64 (c * d) ->
  from (c * d) (Bmult mode_NE x y).
Proof.
  intros x y c d [N L] FY LY C0 D0 FC.
  assert (PY : pos 53 1024 y) by (destruct y as [s|s| |s m e H]; try discriminate FY; unfold pos; lra).
  split; [apply mult_nonneg; auto using pos_nonneg; reflexivity|]. intros FM.
  pose proof (Bmult_correct 53 1024 _ _ mode_NE x y) as K.
  destruct (Rlt_bool_spec (Rabs (round radix2 (SpecFloat.fexp 53 1024) (round_mode mode_NE) (B2R x * B2R y))) (bpow radix2 1024)) as [S|S].
  - destruct K as (K & K2 & _). rewrite FM in K2. symmetry in K2. apply andb_prop in K2. destruct K2 as [FX _].
    rewrite K. change (c * d <= r64 (B2R x * B2R y)). apply rnd_ge_fmt; [reflexivity|exact FC|].
    specialize (L FX). apply Rmult_le_compat; lra.
  - rewrite overflow_NE in K. apply B2SF_inf in K. rewrite K in FM. discriminate FM.
Qed.
(** ... so that, rounded up and cut off at INT_MAX, it is a positive integer. *)
Lemma from_steps : forall acosf (x : float64) c z, from c x -> 0 < c ->
  b_to_int (@std_dmin (ieee acosf) (Bnearbyint mode_UP x) (@dofZ (ieee acosf) INT_MAX)) = Some z -> (1 <= z)%Z.
Proof.
  intros acosf x c z [N L] C0 H. unfold std_dmin in H. cbn [dltb dofZ ieee] in H.
  destruct (ofZ_64 INT_MAX) as [I1 I2]; [reflexivity|]. set (M := binary_normalize 53 1024 _ _ mode_NE INT_MAX 0 false) in *.
  destruct (Bltb M (Bnearbyint mode_UP x)) eqn:E.
  - apply (to_int_some 53 1024) in H; [|exact _]. destruct H as (_ & -> & _). rewrite I2, Ztrunc_IZR. unfold INT_MAX. lia.
  - apply (to_int_some 53 1024) in H; [|exact _]. destruct H as (F & -> & _).
    assert (FX : is_finite x = true) by (destruct x; try discriminate F; reflexivity).
    destruct (ceil_fin 53 1024 _ x FX) as [_ ->]. rewrite Ztrunc_IZR. specialize (L FX).
    apply Z.lt_pred_le. apply lt_IZR. apply Rlt_le_trans with (B2R x); [cbn; lra|apply Zceil_ub].
Qed.

(** The last accepted input, and the saved one, were valid. *)
Section Last.
Context {A : Arith}.
Variable fuel : nat.
Definition last_valid (m : Modeler) : Prop :=
  (forall l, m_last m = Some l -> validate_input (li_input l) = OkStatus) /\
  (forall l, m_saved_last m = Some l -> validate_input (li_input l) = OkStatus).
Lemma last_valid_step : forall m c m' r, last_valid m -> step fuel m c = Ret (m', r) -> last_valid m'.
Proof.
  intros m c m' r [LA SL] H. destruct c; cbn in H.
  - unfold reset_params in H. destruct (validate_params p) eqn:V; inversion H; subst; split; auto; cbn; discriminate.
  - unfold reset_keep in H. destruct (m_params m) eqn:P; inversion H; subst; split; auto; cbn; discriminate.
  - destruct (update fuel m i results) as [[[m1 s1] rs1]| |] eqn:U; cbn in H; try discriminate.
    inversion H; subst. apply update_inv in U. destruct U as (out & -> & U).
    destruct U as [st N TR|p sm pred MP VI EV ML SU UP|p last w cc sm e MP VI EV ML IE DL WU SU NS NE
      |p last w cc sm k tip tips pred lm out MP VI EV ML IE DL WU SU NS UA UP MS
      |p last k tip1 tips1 tip2 tips2 sm lm out MP VI EV ML IE DL NS UA ME SU MS]; split; auto; cbn; try discriminate;
      intros l L; apply some_inj in L; subst l; exact VI.
  - destruct (predict fuel m results) as [[[m1 s1] rs1]| |] eqn:U; cbn in H; try discriminate.
    inversion H; subst. apply predict_inv in U. destruct U; split; auto.
  - inversion H; subst. split; cbn; auto.
  - inversion H; subst. unfold restore. destruct (m_save_active m); split; cbn; auto.
Qed.
Lemma last_valid_run : forall cs m m' rs, last_valid m -> run fuel m cs = Ret (m', rs) -> last_valid m'.
Proof.
  induction cs as [|c cs IH]; intros m m' rs K H; cbn in H; [inversion H; subst; exact K|].
  bind_inv H. destruct x as [m1 r1]. bind_inv H. destruct x as [m2 r2]. inversion H; subst.
  eapply IH; [|exact E0]. eapply last_valid_step; eassumption.
Qed.
Lemma last_valid0 : last_valid modeler0.
Proof. split; discriminate. Qed.
End Last.

(** A Move that comes at least 2^-149 s (the smallest positive float) after the
    previous input appends at least one result, at any output rate that is not
    absurdly small. *)
Theorem C06_move_at_least_one : forall acosf (A := ieee acosf) fuel hist s p l i rs rs',
  after fuel hist s -> ps_params s = Some p -> ps_last s = Some l -> i_event i = EMove ->
  bpow radix2 (-149) <= B2R (i_time i : float64) - B2R (i_time l : float64) -> bpow radix2 (-900) <= B2R (sp_rate (p_sampling p) : float64) ->
  answers fuel hist [CUpdate i rs] = Ret [RResults OkStatus rs'] ->
  exists r out, rs' = rs ++ r :: out.
Proof.
  intros acosf A fuel hist s p l i rs rs' AF P PL EV DT RT AN. subst A.
  destruct (accepted_update _ _ _ _ _ _ _ AF AN) as (m & r0 & m' & o & R & (T1 & T2 & _) & G & C & K & U & _).
  destruct (upd_move _ _ _ _ _ U EV) as (p0 & last0 & w & c & sm & n & tip & tips & pred & lm & MP & VI & ML & DL & WU & SU & NS & UA & UP & MS & EM).
  assert (p0 = p) by congruence. subst p0.
  assert (EL : l = li_input last0) by (rewrite ML, PL in T2; apply some_inj in T2; exact T2).
  pose proof (g_valid _ G p MP) as V.
  destruct (last_valid_run fuel hist _ _ _ last_valid0 R) as [LV _]. specialize (LV _ ML). rewrite <- EL in *.
  apply input_F in VI, LV. destruct VI as (_ & _ & F1), LV as (_ & _ & F0).
  assert (FR : is_finite (sp_rate (p_sampling p) : float64) = true).
  { destruct (validate_params_parts p V) as (_ & _ & VS & _). unfold validate_sampling in VS. apply and_then_ok in VS.
    destruct VS as [VR _]. apply gt0_d_F in VR. apply VR. }
  assert (FB : forall k, (-149 <= k)%Z -> fmt32 (bpow radix2 k)) by (intros; apply fmt_bpow; [reflexivity|lia]).
  assert (FB64 : forall k, (-1074 <= k)%Z -> fmt64 (bpow radix2 k)) by (intros; apply fmt_bpow; [reflexivity|lia]).
  pose proof (bpow_gt_0 radix2 (-149)) as P149. pose proof (bpow_gt_0 radix2 (-900)) as P900.
  assert (N1 : (1 <= n)%Z).
  { pose proof (from_minus _ _ (bpow radix2 (-149)) F1 F0 ltac:(lra) (FB64 (-149)%Z ltac:(lia)) DT) as K1.
    pose proof (from_f2d _ _ (from_d2f _ _ K1 ltac:(lra) (FB (-149)%Z ltac:(lia)))) as K2.
    pose proof (from_mult _ _ _ (bpow radix2 (-900)) K2 FR RT ltac:(lra) P900) as K3.
    rewrite <- bpow_plus in K3. specialize (K3 (FB64 (-149 + -900)%Z ltac:(lia))).
    unfold number_of_steps in NS. cbn [dsub d2f f2d dmul dceil dtoint ieee] in NS. fold float64 in *.
    destruct (b_to_int _) as [z|] eqn:Z in NS; cbn [to_int] in NS; [|discriminate NS].
    apply (from_steps acosf _ _ _ K3 (bpow_gt_0 _ _)) in Z.
    destruct (absolute_angle_to _ _) in NS; [|discriminate NS].
    assert (FIN : forall k, (if Z.ltb (sp_max_outputs (p_sampling p)) k then Ret (IErr (InvalidArgument msg_too_far)) else Ret (IOk k)) = Ret (IOk n) -> k = n).
    { intros k. destruct (Z.ltb _ k); intros Q; apply ret_inj in Q; [discriminate Q|congruence]. }
    destruct (dltb d0 (sp_max_angle (p_sampling p))) in NS.
    - unfold to_int in NS. destruct (b_to_int _) as [z2|] in NS; [|discriminate NS]. apply FIN in NS. destruct (Z.ltb_spec z z2); lia.
    - apply FIN in NS. lia. }
  apply update_along_path_length in UA. apply model_stylus_length in MS. rewrite UA in MS.
  destruct o as [|r o]; [cbn [List.length] in MS; lia|]. exists r, o. exact K.
Qed.

(** ** C08: the times of the accepted inputs *)
Section Order.
Context {A : Arith}.
Variable fuel : nat.
Definition not_before (a b : Input) : Prop := dltb (i_time b) (i_time a) = false.
Definition inputs_in_order (p : StrokeModelParams) (es : list entry) (c : core) : Prop :=
  Forall (fun i => validate_input i = OkStatus) (map fst es) /\ Sorted not_before (map fst es) /\
  exists l, map fst es = l ++ [li_input (co_last c)].
Lemma sorted_snoc : forall {X} (R : X -> X -> Prop) l a b, Sorted R (l ++ [a]) -> R a b -> Sorted R ((l ++ [a]) ++ [b]).
Proof.
  intros X R. induction l as [|x l IH]; intros a b S H; cbn in *.
  - constructor; [repeat constructor|constructor; exact H].
  - inversion S as [|? ? S1 S2]; subst. constructor; [apply IH; assumption|]. destruct l; inversion S2; subst; constructor; assumption.
Qed.
Lemma sorted_init : forall {X} (R : X -> X -> Prop) l a b, Sorted R ((l ++ [a]) ++ [b]) -> Sorted R (l ++ [a]) /\ R a b.
Proof.
  intros X R. induction l as [|x l IH]; intros a b S; cbn in *.
  - inversion S as [|? ? S1 S2]; subst. inversion S2; subst. split; [repeat constructor|assumption].
  - inversion S as [|? ? S1 S2]; subst. destruct (IH a b S1) as [K1 K2]. split; [|exact K2].
    constructor; [exact K1|]. destruct l; inversion S2; subst; constructor; assumption.
Qed.
Lemma in_order_down : forall p m i m' out, upd fuel m i m' OkStatus out -> i_event i = EDown ->
  inputs_in_order p [(i, out)] (core_of p m' (mkLast i (i_pos i))).
Proof.
  intros p m i m' out U EV. destruct (upd_down fuel m i m' out U EV) as (q & sm & pred & _ & VI & _).
  split; [repeat constructor; exact VI|]. split; [repeat constructor|]. exists []. reflexivity.
Qed.
Lemma in_order_move : forall p m i m' out es lst last', m_last m = Some lst ->
  inputs_in_order p es (core_of p m lst) -> upd fuel m i m' OkStatus out -> i_event i = EMove -> m_last m' = Some last' ->
  inputs_in_order p (es ++ [(i, out)]) (core_of p m' last').
Proof.
  intros p m i m' out es lst last' ML (J1 & J2 & l & J3) U EV ML'.
  destruct (upd_move fuel m i m' out U EV) as (p0 & last0 & w & c & sm & n & tip & tips & pred & lm & _ & VI & ML0 & DL & _ & _ & _ & _ & _ & _ & EM).
  rewrite ML in ML0. apply some_inj in ML0. subst last0. cbn [core_of co_last] in J3.
  assert (EL : li_input last' = i) by (rewrite EM in ML'; cbn in ML'; apply some_inj in ML'; subst last'; reflexivity).
  unfold inputs_in_order. cbn [core_of co_last]. rewrite map_app, EL. cbn [map fst]. split; [|split].
  - apply Forall_app. split; [exact J1|]. repeat constructor. exact VI.
  - refine (eq_ind_r (fun z => Sorted not_before (z ++ [i])) _ J3). apply sorted_snoc; [rewrite <- J3; exact J2|exact DL].
  - eexists. reflexivity.
Qed.
Lemma in_order_state : forall hist s es, after_stroke fuel hist s es ->
  exists m rs, run fuel modeler0 hist = Ret (m, rs) /\ tracks s m /\ good m /\ cons m /\
    (forall p last, m_params m = Some p -> m_last m = Some last -> inputs_in_order p es (core_of p m last)).
Proof.
  intros hist s es AS. refine (after_stroke_state fuel (fun _ => True) inputs_in_order _ _ _ hist s es AS (call_in_true hist)).
  - intros p m i m' out _ MP V G U EV. eapply in_order_down; eassumption.
  - intros p m i m' out is lst last' _ MP V G CP ML J U EV ML'. exact (in_order_move p m i m' out is lst last' ML J U EV ML').
  - intros p m i m' out is lst e _ MP V G CP ML J U NE. inversion U; subst; try congruence; exact J.
Qed.
End Order.

(** The times of the accepted inputs of a stroke are finite and never decrease, and
    the last of them is that of the last accepted input. *)
Theorem C08_times_never_decrease : forall acosf (A := ieee acosf) fuel hist s l es,
  after_stroke fuel hist s es -> ps_last s = Some l ->
  let inputs := map fst es in
  Forall (fun i => is_finite (i_time i : float64) = true) inputs /\
  Sorted Rle (map (fun i => B2R (i_time i : float64)) inputs) /\
  exists before, inputs = before ++ [l].
Proof.
  intros acosf A fuel hist s l es AS PL inputs. subst A.
  destruct (in_order_state fuel hist s es AS) as (m & rs & R & (T1 & T2 & _) & G & C & K).
  rewrite PL in T2. destruct (m_last m) as [lst|] eqn:ML; [|discriminate T2]. apply some_inj in T2.
  destruct (m_params m) as [p|] eqn:MP; [|exfalso; destruct (g_none _ G MP) as (_ & _ & K2 & _); congruence].
  destruct (K p lst eq_refl eq_refl) as (J1 & J2 & l0 & J3). cbn [core_of co_last] in J3. rewrite <- T2 in J3.
  assert (FI : Forall (fun i : Input (A := ieee acosf) => is_finite (i_time i : float64) = true) inputs).
  { eapply Forall_impl; [|exact J1]. intros i VI. apply input_F in VI. apply VI. }
  split; [exact FI|]. split; [|exists l0; exact J3].
  unfold inputs in *. clear - J2 FI. induction (map fst es) as [|a is IH]; [constructor|].
  inversion J2 as [|? ? S1 S2]; subst. inversion FI as [|? ? F1 F2]; subst. cbn [map]. constructor; [apply IH; assumption|].
  destruct is as [|b is]; constructor. inversion S2 as [|? ? S3]; subst. inversion F2 as [|? ? F3 F4]; subst.
  apply (ltb_false_R 53 1024) in S3; assumption.
Qed.
