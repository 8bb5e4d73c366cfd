(** * C34: loop contraction mitigation (exact arithmetic). *)
From Coq Require Import ZArith Bool List Sorted Reals Lra Lia Psatz.
From Flocq Require Import Core.Raux.
From Verif Require Export Props_Normal Calm.
Import ListNotations.
Open Scope R_scope.

(** ** Specification *)
(** The results whose speeds are averaged, out of all results of the stroke so far
    (but the first, of the Down): those of the last [min_speed_sampling_window], but
    at least [min_discrete_speed_samples] of them. *)
Definition speed_window (lp : LoopParams) (past : list Result) : list Result :=
  match back past with
  | None => []
  | Some z =>
      most_recent (Z.max (lp_min_samples lp)
        (Z.of_nat (List.length (filter (fun r => Rleb (r_time z - r_time r) (lp_window lp)) past)))) past
  end.
Definition mean_speed (w : list Result) : R := sum (map (fun r => norm (r_vel r)) w) / INR (List.length w).

(** The strength at a speed: linear between the two bounds. *)
Definition strength (lp : LoopParams) (speed : R) : R :=
  if Req_EM_T (lp_speed_lower lp) (lp_speed_upper lp) then lp_strength_lower lp
  else lp_strength_lower lp + (lp_strength_upper lp - lp_strength_lower lp) * ramp (lp_speed_lower lp) (lp_speed_upper lp) speed.
(** The weight of the spring model in the result that comes after [past]. *)
Definition weight (lp : LoopParams) (past : list Result) : R :=
  match past with
  | [] => 1
  | _ => if lp_enabled lp then strength lp (mean_speed (speed_window lp past)) else 1
  end.

(** The results [out] that come after [past] are made of the states [hs] of the
    spring model: their positions are on the way from the projection on the
    inputs to the position of the state. *)
Fixpoint blended (l : list Input) (pts : list point) (lp : LoopParams) (past : list Result) (tp : R) (hs out : list Result) : Prop :=
  match hs, out with
  | [], [] => True
  | h :: hs', r :: out' =>
      (exists x y t, normal_projection pts h (r_time h - tp) x y t /\ taken_from l (fst x) (fst y) t r /\
         r_pos r = along (point_at x y t) (r_pos h) (weight lp past) /\ r_time r = r_time h) /\
      blended l pts lp (past ++ [r]) (r_time h) hs' out'
  | _, _ => False
  end.

(** ** The window of speeds *)
Definition speed_of (r : Result) : SpeedSample := mkSpeed (norm (r_vel r)) (r_time r).

Lemma sorted_tail : forall a l, Sorted Rle (a :: l) -> Sorted Rle l.
Proof. intros a l H. inversion H; assumption. Qed.
Lemma sorted_head : forall l a x, Sorted Rle (a :: l) -> In x l -> a <= x.
Proof.
  intros l a x H I1. apply Sorted_StronglySorted in H; [|intros ? ? ? ? ?; lra]. inversion H; subst.
  rewrite Forall_forall in H3. apply H3. exact I1.
Qed.

Lemma filter_length_le : forall {X} (f : X -> bool) l, (List.length (filter f l) <= List.length l)%nat.
Proof. intros X f l. induction l as [|x l IH]; cbn; [lia|]. destruct (f x); cbn; lia. Qed.

Lemma filter_all : forall {X} (f : X -> bool) l, (forall x, In x l -> f x = true) -> filter f l = l.
Proof. intros X f l H. induction l as [|x l IH]; [reflexivity|]. cbn. rewrite (H x) by (left; reflexivity). f_equal. apply IH. intros y Y. apply H. right. exact Y. Qed.

Lemma trim_window : forall lp t l, (0 <= lp_min_samples lp)%Z -> Sorted Rle (map r_time l) ->
  loop_trim lp t (map speed_of l) = map speed_of (most_recent (Z.max (lp_min_samples lp)
    (Z.of_nat (List.length (filter (fun r => Rleb (t - r_time r) (lp_window lp)) l)))) l).
Proof.
  intros lp t l M. induction l as [|r l IH]; intros SR; [reflexivity|]. cbn [map loop_trim].
  assert (FL : (List.length (filter (fun r => Rleb (t - r_time r) (lp_window lp)) l) <= List.length l)%nat) by apply filter_length_le.
  assert (SM : speed_of r :: map speed_of l = map speed_of (r :: l)) by reflexivity.
  rewrite SM, map_length. change (ss_time (speed_of r)) with (r_time r). rsimp. cbn [filter List.length].
  destruct (Rltb (lp_window lp) (t - r_time r)) eqn:W.
  - apply Rltb_true in W. rewrite (proj2 (Rleb_false _ _) W). cbn [andb].
    destruct (Z.ltb_spec (lp_min_samples lp) (Z.of_nat (Datatypes.S (List.length l)))) as [L|L].
    + rewrite IH by (eapply sorted_tail; exact SR). f_equal. unfold most_recent. cbn [List.length].
      set (n := Z.max _ _). replace (S (List.length l) - Z.to_nat n)%nat with (S (List.length l - Z.to_nat n)) by (unfold n; lia). reflexivity.
    + f_equal. unfold most_recent. cbn [List.length]. set (n := Z.max _ _).
      replace (S (List.length l) - Z.to_nat n)%nat with O by (unfold n; lia). reflexivity.
  - apply Rltb_false in W. cbn [andb]. rewrite (proj2 (Rleb_true _ _) W). cbn [List.length].
    assert (FE : filter (fun r => Rleb (t - r_time r) (lp_window lp)) l = l).
    { apply filter_all. intros x X. apply Rleb_true.
      assert (r_time r <= r_time x) by (eapply sorted_head; [exact SR|apply in_map; exact X]). lra. }
    rewrite FE. f_equal. unfold most_recent. cbn [List.length]. set (n := Z.max _ _).
    replace (S (List.length l) - Z.to_nat n)%nat with O by (unfold n; lia). reflexivity.
Qed.

Lemma trim_trim : forall lp t1 t2 x l, t1 <= t2 ->
  loop_trim lp t2 (loop_trim lp t1 l ++ [x]) = loop_trim lp t2 (l ++ [x]).
Proof.
  intros lp t1 t2 x l T. induction l as [|s l IH]; [reflexivity|]. cbn [loop_trim].
  match goal with |- context [if ?b then loop_trim lp t1 l else _] => destruct b eqn:C end; [|reflexivity].
  rewrite IH. cbn [app loop_trim]. apply andb_prop in C. destruct C as [C1 C2]. rsimp. apply Rltb_true in C1.
  rewrite (proj2 (Rltb_true (lp_window lp) (t2 - ss_time s))) by lra.
  apply Z.ltb_lt in C2. rewrite (proj2 (Z.ltb_lt _ _)); [reflexivity|]. cbn [List.length] in *. rewrite app_length. lia.
Qed.

(** The speeds in memory after the results [past]. *)
Definition speeds_of (lp : LoopParams) (past : list Result) : list SpeedSample := map speed_of (speed_window lp past).
Lemma speeds_snoc : forall lp past r, (0 <= lp_min_samples lp)%Z -> Sorted Rle (map r_time (past ++ [r])) ->
  loop_trim lp (r_time r) (speeds_of lp past ++ [speed_of r]) = speeds_of lp (past ++ [r]).
Proof.
  intros lp past r M S. unfold speeds_of, speed_window. rewrite back_snoc.
  rewrite <- trim_window by assumption. rewrite map_app. cbn [map].
  destruct (back past) as [z|] eqn:B.
  - assert (P : exists q, past = q ++ [z]).
    { destruct past as [|a p] using rev_ind; [discriminate B|]. rewrite back_snoc in B. injection B as ->. eauto. }
    destruct P as (q & ->). rewrite !map_app in S. cbn [map] in S.
    assert (SP : Sorted Rle (map r_time (q ++ [z])) /\ r_time z <= r_time r).
    { rewrite map_app. cbn [map]. clear - S. induction (map r_time q) as [|a l IH]; cbn in *.
      - inversion S; subst. inversion H2; subst. split; [repeat constructor|assumption].
      - pose proof (sorted_tail _ _ S) as S2. destruct (IH S2) as [I1 I2]. split; [|exact I2]. constructor; [exact I1|].
        inversion S; subst. destruct l; cbn in *; inversion H2; subst; constructor; assumption. }
    destruct SP as [SP TL]. rewrite <- trim_window by assumption. apply trim_trim. exact TL.
  - destruct past as [|a p] using rev_ind; [|rewrite back_snoc in B; discriminate B]. reflexivity.
Qed.

Lemma fold_sum : forall l (a : R), fold_left (fun sum s => fadd sum (ss_speed s)) (map speed_of l) a =
  a + sum (map (fun r => norm (r_vel r)) l).
Proof.
  induction l as [|r l IH]; intros a; cbn [map fold_left]; [unfold sum; cbn; ring|]. rewrite IH. cbn [speed_of ss_speed]. rsimp. unfold sum. cbn [fold_right]. ring.
Qed.
Lemma average_mean : forall w, average_speed (map speed_of w) = mean_speed w.
Proof.
  intros w. unfold average_speed, mean_speed. rewrite fold_sum, map_length. rsimp. rewrite Rplus_0_l, <- INR_IZR_INZ. reflexivity.
Qed.

Definition valid_loop (lp : LoopParams) : Prop := lp_enabled lp = true ->
  0 <= lp_speed_lower lp <= lp_speed_upper lp /\ 0 <= lp_strength_upper lp /\
  lp_strength_upper lp <= lp_strength_lower lp <= 1 /\ (1 <= lp_min_samples lp)%Z /\ 0 < lp_window lp.
Lemma valid_loop_R : forall p : StrokeModelParams, validate_params p = OkStatus -> valid_loop (pp_loop (p_position p)).
Proof.
  intros p V E. destruct (validate_params_parts p V) as (_ & VP & _).
  unfold validate_position in VP. apply and_then_ok in VP. destruct VP as [VP _]. unfold validate_loop in VP. rewrite E in VP. cbn [negb] in VP.
  set (lp := pp_loop (p_position p)) in *.
  destruct (fltb (lp_speed_upper lp) (lp_speed_lower lp) || fltb (lp_speed_lower lp) f0) eqn:C1; [discriminate VP|].
  destruct (fltb (lp_strength_lower lp) (lp_strength_upper lp) || fltb f1 (lp_strength_lower lp) || fltb (lp_strength_upper lp) f0) eqn:C2; [discriminate VP|].
  destruct (Z.ltb (lp_min_samples lp) 1 || Z.ltb kMaxDiscreteSamples (lp_min_samples lp)) eqn:C3; [discriminate VP|].
  destruct (dleb (lp_window lp) d0 || dltb kMaxSamplingWindow (lp_window lp)) eqn:C4; [discriminate VP|].
  apply orb_false_elim in C1. destruct C1 as [C1 C1'].
  apply orb_false_elim in C2. destruct C2 as [C2 C2'']. apply orb_false_elim in C2. destruct C2 as [C2 C2'].
  apply orb_false_elim in C3. destruct C3 as [C3 _]. apply orb_false_elim in C4. destruct C4 as [C4 _].
  rsimp. apply Rltb_false in C1, C1', C2, C2', C2''. apply Z.ltb_ge in C3. apply Rleb_false in C4. lra || (repeat split; try assumption; lra || lia).
Qed.

Lemma norm_lerp_ramp : forall lo hi x : R, lo <= hi -> lo <> hi ->
  clamp01 (A := real_arith) (inverse_lerp lo hi x) = ramp lo hi x.
Proof.
  intros lo hi x L N. rewrite <- ramp_normalize by exact L. unfold inverse_lerp, normalize01. rsimp.
  rewrite (proj2 (Reqb_false (hi - lo) 0)) by lra. rewrite (proj2 (Reqb_false lo hi) N). reflexivity.
Qed.

Lemma value_weight : forall lp past, valid_loop lp ->
  loop_value lp (speeds_of lp past) = weight lp past.
Proof.
  intros lp past V. unfold loop_value, weight.
  destruct (lp_enabled lp) eqn:E; cbn [negb].
  2:{ destruct past; destruct (speeds_of lp _); reflexivity. }
  specialize (V E). destruct V as (V1 & V2 & V3 & V4 & V5).
  destruct past as [|a past]; [reflexivity|]. unfold speeds_of.
  set (w := speed_window lp (a :: past)).
  assert (NE : w <> []).
  { unfold w, speed_window, most_recent. destruct (back (a :: past)) as [z|] eqn:B.
    - intros K. apply (f_equal (@List.length _)) in K. rewrite skipn_length in K. cbn [List.length] in K. lia.
    - exfalso. unfold back in B. cbn [List.length Nat.pred] in B. apply nth_error_None in B. cbn in B. lia. }
  destruct (map speed_of w) as [|s ms] eqn:MW; [destruct w; [congruence|discriminate MW]|]. rewrite <- MW. rewrite average_mean.
  unfold strength. destruct (Req_EM_T _ _) as [EQ|NEQ].
  - unfold inverse_lerp. rsimp. rewrite (proj2 (Reqb_true _ 0)) by lra.
    rewrite clamp01_id by lra. rewrite interp_f_R by lra. ring.
  - rewrite norm_lerp_ramp by (tauto || lra). apply interp_f_R. apply ramp_range.
Qed.

Lemma strength_range : forall lp x, valid_loop lp -> lp_enabled lp = true ->
  lp_strength_upper lp <= strength lp x <= lp_strength_lower lp.
Proof.
  intros lp x V E. destruct (V E) as (V1 & V2 & V3 & V4 & V5). unfold strength.
  destruct (Req_EM_T _ _); [lra|]. pose proof (ramp_range (lp_speed_lower lp) (lp_speed_upper lp) x). nra.
Qed.
Lemma weight_range : forall lp past, valid_loop lp -> 0 <= weight lp past <= 1.
Proof.
  intros lp past V. unfold weight. destruct past; [lra|]. destruct (lp_enabled lp) eqn:E; [|lra].
  pose proof (strength_range lp (mean_speed (speed_window lp (r :: past))) V E). destruct (V E) as (V1 & V2 & V3 & _). lra.
Qed.

(** ** The results *)
Lemma sorted_app_l : forall l1 l2, Sorted Rle (l1 ++ l2) -> Sorted Rle l1.
Proof.
  induction l1 as [|a l1 IH]; intros l2 H; [constructor|]. cbn in H. inversion H; subst. constructor; [eapply IH; eassumption|].
  destruct l1; cbn in *; [constructor|]. inversion H3; subst. constructor. assumption.
Qed.

Lemma model_blended : forall fuel l pts sm, memory l pts sm -> sy_normal (sm_params sm) = true ->
  forall hs lm past pt lm' out, valid_loop (l_params lm) ->
  l_samples lm = speeds_of (l_params lm) past \/ lp_enabled (l_params lm) = false ->
  (lp_enabled (l_params lm) = true -> Sorted Rle (map r_time past ++ map r_time hs)) ->
  model_stylus_loop fuel (map tip_of hs) sm lm (weight (l_params lm) past) pt = Ret (lm', out) ->
  blended l pts (l_params lm) past pt hs out /\ l_params lm' = l_params lm /\
  (l_samples lm' = speeds_of (l_params lm) (past ++ out) \/ lp_enabled (l_params lm) = false).
Proof.
  intros fuel l pts sm M N. induction hs as [|h hs IH]; intros lm past pt lm' out V SS SO H; cbn [map model_stylus_loop] in H.
  - inversion H; subst. split; [exact I|]. split; [reflexivity|]. rewrite app_nil_r. exact SS.
  - bind_inv H. rename E into Q, x into r0. bind_inv H. rename E into IR, x into r.
    destruct (loop_update lm (r_vel r) (t_time (tip_of h))) as [l1 v1] eqn:LU.
    bind_inv H. destruct x as [l2 o2]. rename E into ML. inversion H; subst l2 out. clear H.
    destruct (query_normal _ _ _ _ _ _ _ M N Q) as (x & y & t & NN & RT & RP & RTM & IX & IY & T).
    pose proof (weight_range (l_params lm) past V) as W.
    assert (TK : taken_from l (fst x) (fst y) t r)
      by (eapply final_taken; [| | |exact RT|exact IR]; try assumption; apply (mem_in _ _ _ M); assumption).
    pose proof (interp_result_geom _ _ _ _ _ IR) as G. cbn [make_result tip_of t_pos t_vel t_acc t_time r_pos r_vel r_acc r_time] in G.
    assert (TM : r_time r = r_time h).
    { apply (f_equal t_time) in G. cbn [tip_of t_time] in G. rewrite G, RTM. apply interp_t_same. }
    assert (PS : r_pos r = along (point_at x y t) (r_pos h) (weight (l_params lm) past)).
    { apply (f_equal t_pos) in G. cbn [tip_of t_pos] in G. rewrite G, RP, interp_v_R by exact W. reflexivity. }
    cbn [tip_of t_time] in LU, ML.
    assert (K : l_params l1 = l_params lm /\ v1 = weight (l_params lm) (past ++ [r]) /\
      (l_samples l1 = speeds_of (l_params lm) (past ++ [r]) \/ lp_enabled (l_params lm) = false)).
    { unfold loop_update in LU. destruct (lp_enabled (l_params lm)) eqn:E; cbn [negb] in LU.
      - injection LU as <- <-. cbn [l_params l_samples]. unfold loop_get. cbn [l_params l_samples].
        destruct SS as [SS|SS]; [|discriminate SS]. rewrite SS.
        assert (EQ : loop_trim (l_params lm) (r_time h) (speeds_of (l_params lm) past ++ [mkSpeed (sqrt (vx (r_vel r) * vx (r_vel r) + vy (r_vel r) * vy (r_vel r))) (r_time h)]) =
          speeds_of (l_params lm) (past ++ [r])).
        { rewrite <- TM. apply speeds_snoc; [destruct (V E) as (_ & _ & _ & ? & _); lia|].
          specialize (SO eq_refl). cbn [map] in SO. rewrite map_app. cbn [map].
          change (map r_time past ++ r_time h :: map r_time hs) with (map r_time past ++ ([r_time h] ++ map r_time hs)) in SO.
          rewrite app_assoc in SO. apply sorted_app_l in SO. rewrite TM. exact SO. }
        rewrite EQ. split; [reflexivity|]. split; [|auto]. apply value_weight. exact V.
      - injection LU as <- <-. split; [reflexivity|]. split; [|auto]. unfold weight. rewrite E. destruct (past ++ [r]); reflexivity. }
    destruct K as (K1 & K2 & K3). subst v1. rewrite <- K1 in ML.
    destruct (IH l1 (past ++ [r]) (r_time h) lm' o2) as (I1 & I2 & I3).
    + rewrite K1. exact V.
    + rewrite K1. exact K3.
    + rewrite K1. intros E. specialize (SO E). rewrite map_app. cbn [map] in *. rewrite TM, <- app_assoc. exact SO.
    + exact ML.
    + rewrite K1 in *. rewrite <- app_assoc in I3. split; [|split; assumption]. cbn [blended]. split; [|exact I1].
      exists x, y, t. auto.
Qed.

(** ** The memory of the speeds *)
Lemma model_speeds : forall fuel sm, s_raw (sm_state sm) <> [] ->
  forall tips lm past v pt lm' out, valid_loop (l_params lm) -> lp_enabled (l_params lm) = true ->
  l_samples lm = speeds_of (l_params lm) past -> Sorted Rle (map r_time past ++ map t_time tips) ->
  model_stylus_loop (A := real_arith) fuel tips sm lm v pt = Ret (lm', out) ->
  l_samples lm' = speeds_of (l_params lm) (past ++ out).
Proof.
  intros fuel sm NE. induction tips as [|tip tips IH]; intros lm past v pt lm' out V E SS SO H; cbn [model_stylus_loop] in H.
  - injection H as <- <-. rewrite app_nil_r. exact SS.
  - bind_inv H. rename E0 into Q, x into r0. bind_inv H. rename E0 into IR, x into r.
    assert (TM : r_time r = t_time tip).
    { pose proof (interp_result_geom _ _ _ _ _ IR) as G. apply (f_equal t_time) in G. cbn [tip_of t_time make_result r_time] in G.
      rewrite (stylus_query_time _ _ _ _ _ Q NE), interp_t_same in G. exact G. }
    destruct (loop_update lm (r_vel r) (t_time tip)) as [l1 v1] eqn:LU.
    bind_inv H. destruct x as [l2 o2]. rename E0 into ML. injection H as <- <-.
    assert (K : l_params l1 = l_params lm /\ l_samples l1 = speeds_of (l_params lm) (past ++ [r])).
    { unfold loop_update in LU. rewrite E in LU. cbn [negb] in LU. apply (f_equal fst) in LU. cbn [fst] in LU. subst l1. cbn [l_params l_samples].
      split; [reflexivity|]. rewrite SS, <- TM. apply speeds_snoc; [destruct (V E) as (_ & _ & _ & ? & _); lia|].
      cbn [map] in SO. rewrite map_app. cbn [map]. rewrite TM.
      change (map r_time past ++ t_time tip :: map t_time tips) with (map r_time past ++ ([t_time tip] ++ map t_time tips)) in SO.
      rewrite app_assoc in SO. apply sorted_app_l in SO. exact SO. }
    destruct K as [K1 K2].
    replace (past ++ r :: o2) with ((past ++ [r]) ++ o2) by (rewrite <- app_assoc; reflexivity). rewrite <- K1. eapply IH; [| | | |exact ML].
    + rewrite K1. exact V.
    + rewrite K1. exact E.
    + rewrite K1. exact K2.
    + rewrite map_app. cbn [map] in *. rewrite TM, <- app_assoc. exact SO.
Qed.

(** The results of the stroke but that of its Down. *)
Definition since_down (es : list (entry (A := real_arith))) : list Result := tl (List.concat (map snd es)).

Definition paced (p : StrokeModelParams (A := real_arith)) (es : list (entry (A := real_arith))) (c : core) : Prop :=
  on_time p es c /\ (lp_enabled (pp_loop (p_position p)) = true -> co_l c = speeds_of (pp_loop (p_position p)) (since_down es)).

Lemma on_time_sorted : forall p es c, on_time p es c -> Sorted Rle (map r_time (List.concat (map snd es))) /\
  exists r rest, List.concat (map snd es) = r :: rest.
Proof.
  intros p es c (_ & d & out0 & rest & l & _ & E & GW & _). rewrite E. split; [apply (gaps_sorted _ _ _ GW)|].
  destruct (List.concat (map snd es)) as [|r q]; [discriminate E|]. eauto.
Qed.

Lemma paced_state : forall fuel hist s es, after_stroke fuel hist s es ->
  exists m rs, run fuel modeler0 hist = Ret (m, rs) /\ tracks s m /\ good m /\ cons m /\
    (forall p last, m_params m = Some p -> m_last m = Some last -> paced p es (core_of p m last)).
Proof.
  intros fuel hist s es AS. eapply (after_stroke_state fuel (fun _ => True) paced); [| | |exact AS|apply call_in_true].
  - intros p m i m' out _ MP V G U EV. split; [eapply on_time_down; eassumption|].
    destruct (upd_down fuel m i m' out U EV) as (q & sm & pred & _ & _ & _ & _ & _ & -> & ->). intros _. reflexivity.
  - intros p m i m' out es0 lst last' _ MP V G CP ML [OT SP] U EV ML'.
    pose proof (on_time_move fuel p m i m' out es0 lst last' MP V CP ML OT U EV ML') as OT'. split; [exact OT'|].
    intros EN. specialize (SP EN).
    destruct (upd_move fuel m i m' out U EV) as (q & last0 & w & c & sm & n & tip & tips & pred & lm & MQ & _ & ML0 & _ & _ & SU & _ & _ & _ & MS & ->).
    destruct CP as (_ & _ & P3 & P4). cbn [core_of co_l m_loop] in *.
    assert (NE : s_raw (sm_state sm) <> []).
    { eapply stylus_update_nonempty; [| |exact SU]; rewrite P3; [exact (stylus_valid m p G MP)|]. apply mitigation_normal; assumption. }
    destruct (on_time_sorted _ _ _ OT') as [SO _]. destruct (on_time_sorted _ _ _ OT) as [_ (r & rest & ER)].
    assert (TM : map r_time out = map t_time tips) by (eapply model_stylus_times; [|exact MS]; intros _; exact NE).
    assert (CC : List.concat (map snd (es0 ++ [(i, out)])) = List.concat (map snd es0) ++ out).
    { rewrite map_app, concat_app. cbn [map List.concat snd]. rewrite app_nil_r. reflexivity. }
    assert (SD : since_down (es0 ++ [(i, out)]) = since_down es0 ++ out).
    { unfold since_down. rewrite CC, ER. reflexivity. }
    rewrite SD, <- P4. unfold model_stylus in MS. rewrite <- P4 in SP. eapply model_speeds; [exact NE| | |exact SP| |exact MS].
    + rewrite P4. apply valid_loop_R. exact V.
    + rewrite P4. exact EN.
    + rewrite <- TM, <- map_app. unfold since_down. rewrite ER. rewrite CC, ER in SO. cbn [map app tl] in *. eapply sorted_tail. exact SO.
  - intros p m i m' out is lst e _ MP V G CP ML J U NE. inversion U; subst; try congruence; exact J.
Qed.

(** ** Both runs *)
Lemma hidden_update : forall fuel hist m rs0 i rs out, run fuel modeler0 hist = Ret (m, rs0) ->
  answers fuel hist [CUpdate i rs] = Ret [RResults OkStatus (rs ++ out)] ->
  exists n n' hs, calm m n /\ cons n /\ upd fuel n i n' OkStatus hs /\
    answers fuel (map unmitigated hist) [CUpdate i rs] = Ret [RResults OkStatus (rs ++ hs)].
Proof.
  intros fuel hist m rs0 i rs out R AN. destruct (run_calm0 _ _ _ _ R) as (n & qs & RN & CA & G & CM & CN & FI).
  pose proof (C34_only_geometry fuel hist [CUpdate i rs]) as ON. rewrite AN in ON. cbn [map unmitigated] in ON.
  destruct (answers fuel (map unmitigated hist) [CUpdate i rs]) as [qa| |] eqn:AQ; try contradiction. cbn [orel] in ON.
  inversion ON as [|? b ? l RR RL]; subst. inversion RL; subst. inversion RR as [|s a c RR2|]; subst.
  assert (AF : after fuel (map unmitigated hist) (prun pstate0 (map unmitigated hist) qs)) by (exists n, qs; auto).
  destruct (accepted_update _ _ _ _ _ _ _ AF AQ) as (n1 & r0 & n' & hs & RN1 & _ & _ & _ & -> & U & _).
  rewrite RN in RN1. injection RN1 as <- <-. exists n, n', hs. auto.
Qed.
Lemma hidden_predict : forall fuel hist m rs0 rs out, run fuel modeler0 hist = Ret (m, rs0) ->
  answers fuel hist [CPredict rs] = Ret [RResults OkStatus out] ->
  exists n n' hs, calm m n /\ cons n /\ prd fuel n n' OkStatus hs /\
    answers fuel (map unmitigated hist) [CPredict rs] = Ret [RResults OkStatus hs].
Proof.
  intros fuel hist m rs0 rs out R AN. destruct (run_calm0 _ _ _ _ R) as (n & qs & RN & CA & G & CM & CN & FI).
  pose proof (C34_only_geometry fuel hist [CPredict rs]) as ON. rewrite AN in ON. cbn [map unmitigated] in ON.
  destruct (answers fuel (map unmitigated hist) [CPredict rs]) as [qa| |] eqn:AQ; try contradiction. cbn [orel] in ON.
  inversion ON as [|? b ? l RR RL]; subst. inversion RL; subst. inversion RR as [|s a c RR2|]; subst.
  assert (AF : after fuel (map unmitigated hist) (prun pstate0 (map unmitigated hist) qs)) by (exists n, qs; auto).
  destruct (accepted_predict _ _ _ _ _ _ AF AQ) as (n1 & r0 & n' & RN1 & _ & _ & _ & U).
  rewrite RN in RN1. injection RN1 as <- <-. exists n, n', c. auto.
Qed.

(** The results, from the memories and the results without mitigation. *)
Lemma blended_results : forall fuel p L sm lm lm' ln ln' tips pt past out hs, validate_params p = OkStatus ->
  lp_enabled (pp_loop (p_position p)) = true -> L <> [] -> sm_params sm = p_stylus p ->
  remembering (p_stylus p) L (sm_state sm) -> l_params lm = pp_loop (p_position p) ->
  l_samples lm = speeds_of (l_params lm) past -> lp_enabled (l_params ln) = false ->
  model_stylus fuel tips sm lm pt = Ret (lm', out) -> model_stylus fuel tips sm ln pt = Ret (ln', hs) ->
  Sorted Rle (map r_time past ++ map r_time out) ->
  exists pts, held (p_stylus p) L pts /\ blended (map fst L) pts (pp_loop (p_position p)) past pt hs out.
Proof.
  intros fuel p L sm lm lm' ln ln' tips pt past out hs V EN NE SP RM LP SS OFF MS MN SO.
  pose proof (mitigation_normal p V EN) as N.
  rewrite <- SP in *. destruct (memory_normal sm L) as (pts & K1 & K2); try assumption.
  { rewrite SP. apply (validate_params_parts p V). }
  exists pts. split; [exact K1|]. destruct (model_stylus_off _ _ _ _ _ _ _ OFF MN) as [TH _].
  assert (RN : s_raw (sm_state sm) <> []).
  { pose proof (mem_raw _ _ _ K2) as [M6|(_ & _ & M6)]; [|congruence]. intros E. rewrite E in M6. inversion M6. subst.
    apply (mem_some _ _ _ K2). reflexivity. }
  assert (TM : map r_time out = map r_time hs).
  { rewrite (model_stylus_times _ _ _ _ _ _ _ (fun _ => RN) MS), <- TH, map_map. reflexivity. }
  unfold model_stylus in MS. unfold loop_get in MS. rewrite SS in MS.
  rewrite value_weight in MS by (rewrite LP; apply valid_loop_R; exact V). rewrite <- TH in MS. rewrite <- LP.
  eapply (model_blended fuel (map fst L) pts sm K2 N hs lm past pt lm' out); [|left; exact SS| |exact MS].
  - rewrite LP. apply valid_loop_R. exact V.
  - intros _. rewrite <- TM. exact SO.
Qed.

(** ** C34 *)
(** The results [hs] are those of the same history with mitigation switched off,
    i.e. the states of the spring model. *)
Theorem C34_mitigation_move : forall (A := real_arith) fuel hist s p es seen i rs out,
  after_seen fuel hist s es seen -> ps_params s = Some p -> lp_enabled (pp_loop (p_position p)) = true -> i_event i = EMove ->
  answers fuel hist [CUpdate i rs] = Ret [RResults OkStatus (rs ++ out)] ->
  sorted_if_smoothing (p_wobble p) (seen ++ [i]) ->
  exists hs pts,
    answers fuel (map unmitigated hist) [CUpdate i rs] = Ret [RResults OkStatus (rs ++ hs)] /\
    held (p_stylus p) (smooth_points (p_wobble p) (seen ++ [i])) pts /\
    blended (seen ++ [i]) pts (pp_loop (p_position p)) (since_down es) (i_time i) hs out.
Proof.
  intros A fuel hist s p es seen i rs out AS P EN EV AN SO. subst A.
  destruct (remembered_state _ _ _ _ _ AS) as (m0 & rs0 & R0 & _ & _ & _ & RM).
  assert (ST : after_stroke fuel hist s es) by (destruct AS as (ma & rsa & A1 & A2 & A3 & _ & A4); exists ma, rsa; auto).
  destruct (paced_state _ _ _ _ ST) as (m1 & rs1 & R1 & _ & _ & _ & PS). rewrite R0 in R1. injection R1 as <- <-.
  assert (AF : after fuel hist s) by (destruct AS as (ma & rsa & Ra & Pa & _); exists ma, rsa; auto).
  destruct (accepted_update _ _ _ _ _ _ _ AF AN) as (m & r0 & m' & o & R & (T1 & T2 & _) & G & C & K & U & _).
  rewrite R0 in R. injection R as -> ->. apply app_inv_head in K. subst o.
  destruct (hidden_update _ _ _ _ _ _ _ R0 AN) as (n & n' & hs & CA & CN & UN & AH).
  destruct (upd_move fuel m i m' out U EV) as (q & last0 & w & c & sm & k & tip & tips & pred & lm & MQ & _ & ML & _ & WU & SU & NS & UA & _ & MS & EM).
  destruct (upd_move fuel n i n' hs UN EV) as (q' & last' & w' & c' & sm' & k' & tip' & tips' & pred' & ln & MQ' & _ & ML' & _ & WU' & SU' & NS' & UA' & _ & MS' & _).
  assert (q = p) by congruence. subst q. pose proof (g_valid _ G p MQ) as V.
  pose proof (C p MQ ltac:(left; congruence)) as CP. pose proof CP as (C1 & C2 & C3 & C4).
  destruct (in_stroke_off _ _ _ _ CA CN MQ ML) as [F1 F2].
  pose proof CA as [E1 E2 E3 E4 E5 E6 E7 E8 E9 E10].
  (* the same states in both runs *)
  rewrite E7, ML in ML'. injection ML' as <-. rewrite E3, WU in WU'. injection WU' as <- <-. rewrite E6, SU in SU'. injection SU' as <-.
  rewrite E2, MQ in MQ'. injection MQ' as <-. rewrite E4 in NS', UA'. cbn [without_mitigation p_sampling p_position] in NS'. rewrite steps_off, NS in NS'. injection NS' as <-.
  rewrite F1, update_along_path_off, <- C2, UA in UA'. injection UA' as <- <-.
  destruct (RM p last0 MQ ML) as (cs & ws & [H1 H2 _ _ _ _]). cbn [core_of co_w co_s] in *.
  destruct (PS p last0 MQ ML) as [OT PC]. specialize (PC EN). cbn [core_of co_l] in PC.
  assert (SPS : sm_params sm = p_stylus p) by (rewrite <- C3; eapply stylus_update_params; exact SU).
  assert (RML : remembering (p_stylus p) (smooth_points (p_wobble p) (seen ++ [i])) (sm_state sm)).
  { assert (SM : smoothing (p_wobble p) (seen ++ [i]) (cs ++ [c]) (w_state w)).
    { eapply Sm_move; [exact H1|]. rewrite <- C1. apply wobble_wstep. exact WU. }
    pose proof (smoothing_spec p _ _ _ V SM SO) as E. rewrite smoothed_snoc in E. apply app_inj_tail in E. destruct E as [Ea Eb].
    rewrite smooth_points_snoc. unfold smooth_points. rewrite <- Ea, <- Eb. eapply Re_more; [exact H2|]. rewrite <- C3.
    apply stylus_mstep. exact SU. }
  assert (NE : smooth_points (p_wobble p) (seen ++ [i]) <> []).
  { rewrite smooth_points_snoc. intros E. apply app_eq_nil in E. destruct E; discriminate. }
  assert (ML2 : m_last m' = Some (mkLast i c)) by (rewrite EM; reflexivity).
  pose proof (on_time_move fuel p m i m' out es last0 _ MQ V CP ML OT U EV ML2) as OT'.
  destruct (on_time_sorted _ _ _ OT') as [SRT _]. destruct (on_time_sorted _ _ _ OT) as [_ (r & rest & ER)].
  assert (CC : List.concat (map snd (es ++ [(i, out)])) = List.concat (map snd es) ++ out).
  { rewrite map_app, concat_app. cbn [map List.concat snd]. rewrite app_nil_r. reflexivity. }
  assert (SRT2 : Sorted Rle (map r_time (since_down es) ++ map r_time out)).
  { rewrite <- map_app. unfold since_down. rewrite ER. rewrite CC, ER in SRT. cbn [map app tl] in *. eapply sorted_tail. exact SRT. }
  rewrite <- C4 in PC.
  destruct (blended_results _ p _ sm (m_loop m) lm (m_loop n) ln tips (i_time i) (since_down es) out hs V EN NE SPS RML C4 PC F2 MS MS' SRT2) as (pts & B1 & B2).
  rewrite smooth_points_fst in B2. exists hs, pts. auto.
Qed.

Theorem C34_mitigation_up : forall (A := real_arith) fuel hist s p i0 es seen i rs out,
  after_seen fuel hist s es seen -> ps_params s = Some p -> ps_last s = Some i0 -> lp_enabled (pp_loop (p_position p)) = true -> i_event i = EUp ->
  answers fuel hist [CUpdate i rs] = Ret [RResults OkStatus (rs ++ out)] ->
  sorted_if_smoothing (p_wobble p) seen ->
  exists hs pts,
    answers fuel (map unmitigated hist) [CUpdate i rs] = Ret [RResults OkStatus (rs ++ hs)] /\
    held (p_stylus p) (smooth_points (p_wobble p) seen ++ [(i, i_pos i)]) pts /\
    blended (seen ++ [i]) pts (pp_loop (p_position p)) (since_down es) (i_time i0) hs out.
Proof.
  intros A fuel hist s p i0 es seen i rs out AS P L0 EN EV AN SO. subst A.
  destruct (remembered_state _ _ _ _ _ AS) as (m0 & rs0 & R0 & _ & _ & _ & RM).
  assert (ST : after_stroke fuel hist s es) by (destruct AS as (ma & rsa & A1 & A2 & A3 & _ & A4); exists ma, rsa; auto).
  destruct (paced_state _ _ _ _ ST) as (m1 & rs1 & R1 & _ & _ & _ & PS). rewrite R0 in R1. injection R1 as <- <-.
  assert (AF : after fuel hist s) by (destruct AS as (ma & rsa & Ra & Pa & _); exists ma, rsa; auto).
  destruct (accepted_update _ _ _ _ _ _ _ AF AN) as (m & r0 & m' & o & R & (T1 & T2 & _) & G & C & K & U & _).
  rewrite R0 in R. injection R as -> ->. apply app_inv_head in K. subst o.
  destruct (hidden_update _ _ _ _ _ _ _ R0 AN) as (n & n' & hs & CA & CN & UN & AH).
  destruct (upd_up fuel m i m' out U EV) as (q & last0 & k & tip1 & tips1 & tip2 & tips2 & sm & lm & MQ & _ & ML & _ & NS & UA & ME & SU & MS & _).
  destruct (upd_up fuel n i n' hs UN EV) as (q' & last' & k' & tip1' & tips1' & tip2' & tips2' & sm' & ln & MQ' & _ & ML' & _ & NS' & UA' & ME' & SU' & MS' & _).
  assert (q = p) by congruence. subst q. pose proof (g_valid _ G p MQ) as V.
  pose proof (C p MQ ltac:(left; congruence)) as CP. pose proof CP as (C1 & C2 & C3 & C4).
  destruct (in_stroke_off _ _ _ _ CA CN MQ ML) as [F1 F2].
  pose proof CA as [E1 E2 E3 E4 E5 E6 E7 E8 E9 E10].
  rewrite E7, ML in ML'. injection ML' as <-. rewrite E6, SU in SU'. injection SU' as <-.
  rewrite E2, MQ in MQ'. injection MQ' as <-. rewrite E4 in NS', UA'. cbn [without_mitigation p_sampling p_position] in NS', ME'. rewrite steps_off, NS in NS'. injection NS' as <-.
  rewrite F1, update_along_path_off, <- C2, UA in UA'. injection UA' as <- <-.
  rewrite F1, end_of_stroke_off, <- C2, ME in ME'. injection ME' as <- <-.
  destruct (RM p last0 MQ ML) as (cs & ws & [H1 H2 _ _ _ _]). cbn [core_of co_w co_s] in *.
  destruct (PS p last0 MQ ML) as [OT PC]. specialize (PC EN). cbn [core_of co_l] in PC.
  assert (SPS : sm_params sm = p_stylus p) by (rewrite <- C3; eapply stylus_update_params; exact SU).
  assert (RML : remembering (p_stylus p) (smooth_points (p_wobble p) seen ++ [(i, i_pos i)]) (sm_state sm)).
  { pose proof (smoothing_spec p _ _ _ V H1 SO) as E. unfold smooth_points. rewrite <- E. eapply Re_more; [exact H2|]. rewrite <- C3.
    apply stylus_mstep. exact SU. }
  assert (NE : smooth_points (p_wobble p) seen ++ [(i, i_pos i)] <> []) by (intros E; apply app_eq_nil in E; destruct E; discriminate).
  assert (I0 : i_time (li_input last0) = i_time i0).
  { rewrite L0, ML in T2. injection T2 as ->. reflexivity. }
  destruct (C23_up_times_never_decrease fuel hist s p i0 i rs out es ST P L0 EV AN) as [SRT _].
  destruct (on_time_sorted _ _ _ OT) as [_ (r & rest & ER)].
  assert (SRT2 : Sorted Rle (map r_time (since_down es) ++ map r_time out)).
  { rewrite <- map_app. unfold since_down. rewrite ER. rewrite ER in SRT. cbn [map app tl] in *. eapply sorted_tail. exact SRT. }
  rewrite <- C4 in PC. rewrite I0 in MS, MS'.
  destruct (blended_results _ p _ sm (m_loop m) lm (m_loop n) ln _ (i_time i0) (since_down es) out hs V EN NE SPS RML C4 PC F2 MS MS' SRT2) as (pts & B1 & B2).
  assert (E : seen ++ [i] = map fst (smooth_points (p_wobble p) seen ++ [(i, i_pos i)]))
    by (rewrite map_app, smooth_points_fst; reflexivity).
  rewrite E. exists hs, pts. auto.
Qed.

(** Of a prediction whose times do not decrease (cf. C23, C40). *)
Theorem C34_mitigation_predict : forall (A := real_arith) fuel hist s p i0 es seen rs out,
  after_seen fuel hist s es seen -> ps_params s = Some p -> ps_last s = Some i0 -> lp_enabled (pp_loop (p_position p)) = true ->
  answers fuel hist [CPredict rs] = Ret [RResults OkStatus out] ->
  sorted_if_smoothing (p_wobble p) seen -> Sorted Rle (map r_time (since_down es ++ out)) ->
  exists hs pts,
    answers fuel (map unmitigated hist) [CPredict rs] = Ret [RResults OkStatus hs] /\
    held (p_stylus p) (smooth_points (p_wobble p) seen) pts /\
    blended seen pts (pp_loop (p_position p)) (since_down es) (i_time i0) hs out.
Proof.
  intros A fuel hist s p i0 es seen rs out AS P L0 EN AN SO SRT. subst A.
  destruct (remembered_state _ _ _ _ _ AS) as (m0 & rs0 & R0 & _ & _ & _ & RM).
  assert (ST : after_stroke fuel hist s es) by (destruct AS as (ma & rsa & A1 & A2 & A3 & _ & A4); exists ma, rsa; auto).
  destruct (paced_state _ _ _ _ ST) as (m1 & rs1 & R1 & _ & _ & _ & PS). rewrite R0 in R1. injection R1 as <- <-.
  assert (AF : after fuel hist s) by (destruct AS as (ma & rsa & Ra & Pa & _); exists ma, rsa; auto).
  destruct (predict_memory _ _ _ _ _ _ _ _ AS P AN SO) as (_ & SNE & _).
  destruct (accepted_predict _ _ _ _ _ _ AF AN) as (m & r0 & m' & R & (T1 & T2 & _) & G & C & U).
  rewrite R0 in R. injection R as -> ->.
  destruct (hidden_predict _ _ _ _ _ _ R0 AN) as (n & n' & hs & CA & CN & UN & AH).
  destruct (prd_ok fuel m m' out U) as (q & pr & last0 & tips & lm & MQ & MPR & ML & PCN & MS & _).
  destruct (prd_ok fuel n n' hs UN) as (q' & pr' & last' & tips' & ln & MQ' & MPR' & ML' & PCN' & MS' & _).
  assert (q = p) by congruence. subst q. pose proof (g_valid _ G p MQ) as V.
  pose proof (C p MQ ltac:(left; congruence)) as CP. pose proof CP as (C1 & C2 & C3 & C4).
  destruct (in_stroke_off _ _ _ _ CA CN MQ ML) as [F1 F2].
  pose proof CA as [E1 E2 E3 E4 E5 E6 E7 E8 E9 E10].
  rewrite E7, ML in ML'. injection ML' as <-. rewrite E1, MPR in MPR'. cbn [option_map] in MPR'. injection MPR' as <-.
  rewrite pred_construct_off, E4, PCN in PCN'. injection PCN' as <-. rewrite E6 in MS'.
  destruct (RM p last0 MQ ML) as (cs & ws & [H1 H2 _ _ _ _]). cbn [core_of co_w co_s] in *.
  destruct (PS p last0 MQ ML) as [OT PC]. specialize (PC EN). cbn [core_of co_l] in PC.
  assert (RML : remembering (p_stylus p) (smooth_points (p_wobble p) seen) (sm_state (m_stylus m))).
  { pose proof (smoothing_spec p _ _ _ V H1 SO) as E. unfold smooth_points. rewrite <- E. exact H2. }
  assert (NE : smooth_points (p_wobble p) seen <> []).
  { intros E. apply (f_equal (map fst)) in E. rewrite smooth_points_fst in E. contradiction. }
  assert (I0 : i_time (li_input last0) = i_time i0).
  { rewrite L0, ML in T2. injection T2 as ->. reflexivity. }
  rewrite map_app in SRT.
  rewrite <- C4 in PC. rewrite I0 in MS, MS'.
  destruct (blended_results _ p _ (m_stylus m) (m_loop m) lm (m_loop n) ln _ (i_time i0) (since_down es) out hs V EN NE C3 RML C4 PC F2 MS MS' SRT) as (pts & B1 & B2).
  rewrite smooth_points_fst in B2. exists hs, pts. auto.
Qed.

(** The weights: within the two strengths, linear between the two speeds, never
    increasing with the speed.  (When the two speeds are equal, the documented
    values contradict each other: the first is taken, whatever the speed.) *)
Lemma ramp_mono : forall lo hi x y, x <= y -> ramp lo hi x <= ramp lo hi y.
Proof.
  intros lo hi x y L. unfold ramp. destruct (Rle_dec x lo), (Rle_dec y lo), (Rle_dec hi x), (Rle_dec hi y); try lra.
  - apply Rle_mult_inv_pos; lra.
  - apply Rmult_le_reg_r with (hi - lo); [lra|]. field_simplify; lra.
  - unfold Rdiv. apply Rmult_le_compat_r; [|lra]. apply Rlt_le, Rinv_0_lt_compat. lra.
Qed.

Theorem C34_strength : forall (A := real_arith) p, validate_params p = OkStatus ->
  let lp := pp_loop (p_position p) in lp_enabled lp = true ->
  (forall v, 0 <= lp_strength_upper lp <= strength lp v /\ strength lp v <= lp_strength_lower lp <= 1) /\
  (forall v, v <= lp_speed_lower lp -> strength lp v = lp_strength_lower lp) /\
  (forall v, lp_speed_lower lp < lp_speed_upper lp -> lp_speed_upper lp <= v -> strength lp v = lp_strength_upper lp) /\
  (forall v w, v <= w -> strength lp w <= strength lp v) /\
  (forall past, 0 <= weight lp past <= 1).
Proof.
  intros A p V lp E. subst A. pose proof (valid_loop_R p V) as VL. fold lp in VL. pose proof (VL E) as (V1 & V2 & V3 & V4 & V5).
  split; [|split; [|split; [|split]]].
  - intros v. pose proof (strength_range lp v VL E). lra.
  - intros v L. unfold strength, ramp. destruct (Req_EM_T _ _); [reflexivity|]. destruct (Rle_dec _ _); lra.
  - intros v L1 L2. unfold strength, ramp. destruct (Req_EM_T _ _); [lra|]. destruct (Rle_dec _ _); [lra|]. destruct (Rle_dec _ _); lra.
  - intros v w L. unfold strength. destruct (Req_EM_T _ _); [lra|].
    pose proof (ramp_mono (lp_speed_lower lp) (lp_speed_upper lp) v w L). apply Rplus_le_compat_l.
    apply Rmult_le_compat_neg_l; lra.
  - intros past. apply weight_range. exact VL.
Qed.
