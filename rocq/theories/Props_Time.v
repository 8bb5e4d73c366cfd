(** * C22, C23: when results happen (exact arithmetic). *)
From Coq Require Import ZArith Bool List Sorted Reals Lra Lia Psatz.
From Flocq Require Import Core.Raux.
From Verif Require Export RFacts.
Import ListNotations.
Open Scope R_scope.

(** ** Specification *)
(** The times [l], which follow the time [t], never decrease and are never more
    than [g] apart. *)
Fixpoint gaps_within (g t : R) (l : list R) : Prop :=
  match l with
  | [] => True
  | u :: l' => t <= u <= t + g /\ gaps_within g u l'
  end.
(** The results [out] are evenly spaced over the time from [t0] to [t1], the last
    one at [t1]. *)
Definition evenly_spaced (t0 t1 : R) (out : list Result) : Prop :=
  forall j r, nth_error out j = Some r ->
    r_time r = t0 + (t1 - t0) * (INR (S j) / INR (List.length out)).

(** ** Proof *)
Lemma gaps_app : forall g l1 l2 t, gaps_within g t (l1 ++ l2) <->
  gaps_within g t l1 /\ gaps_within g (last l1 t) l2.
Proof.
  intros g. induction l1 as [|u l1 IH]; intros l2 t; [cbn; tauto|].
  cbn [app gaps_within]. rewrite IH, last_cons. tauto.
Qed.

Lemma waypoint_gaps : forall g a ta b tb n k j,
  (Z.of_nat (j + k) <= n)%Z -> ta <= tb -> (tb - ta) <= g * IZR n ->
  gaps_within g (ta + (tb - ta) * (INR j / IZR n)) (map snd (map (waypoint a ta b tb n) (seq j k))).
Proof.
  intros g a ta b tb n. induction k as [|k IH]; intros j H LE HG; [exact I|].
  cbn [seq map gaps_within]. split; [|apply (IH (S j)); [lia|assumption|assumption]].
  unfold waypoint. cbn [snd]. assert (0 < IZR n) by (apply IZR_lt; lia). rewrite S_INR.
  replace ((INR j + 1) / IZR n) with (INR j / IZR n + / IZR n) by (field; lra).
  assert (0 <= (tb - ta) * / IZR n <= g).
  { split; [apply Rle_mult_inv_pos; lra|]. apply Rmult_le_reg_r with (IZR n); [assumption|].
    rewrite Rmult_assoc, Rinv_l by lra. lra. }
  lra.
Qed.

Lemma waypoint_last : forall a ta b tb n d, (0 <= n)%Z -> (n = 0%Z -> tb = ta /\ d = ta) ->
  last (map snd (map (waypoint a ta b tb n) (seq 0 (Z.to_nat n)))) d = tb.
Proof.
  intros a ta b tb n d N Z. destruct (Z.eq_dec n 0) as [->|NZ]; [destruct (Z eq_refl) as [-> ->]; reflexivity|].
  destruct (Z.to_nat n) as [|k] eqn:E; [lia|]. rewrite seq_S, !map_app. cbn [map].
  rewrite last_last. unfold waypoint. cbn [snd plus].
  assert (EN : INR (S k) = IZR n) by (rewrite INR_IZR_INZ; f_equal; lia).
  rewrite EN. assert (0 < IZR n) by (apply IZR_lt; lia). field. lra.
Qed.

Lemma last_map : forall {X Y} (f : X -> Y) l d, last (map f l) (f d) = f (last l d).
Proof. intros X Y f l. induction l as [|x l IH]; intros d; [reflexivity|]. cbn [map]. rewrite !last_cons. apply IH. Qed.

(** What an accepted Move does. *)
Lemma move_R : forall fuel p m i m' out, validate_params p = OkStatus -> m_params m = Some p -> comp_params p m ->
  upd fuel m i m' OkStatus out -> i_event i = EMove ->
  exists last0 w c n tips,
    m_last m = Some last0 /\ m_last m' = Some (mkLast i c) /\
    wobble_update (m_wobble m) (i_pos i) (i_time i) = Ret (w, c) /\ m_wobble m' = w /\
    i_time (li_input last0) <= i_time i /\
    number_of_steps (pm_state (m_pos m)) (li_input last0) i (p_sampling p) (p_position p) = Ret (IOk n) /\
    (0 <= n < INT_MAX)%Z /\ (i_time i - i_time (li_input last0)) * sp_rate (p_sampling p) <= IZR n /\
    tips = scan (p_position p) (pm_state (m_pos m))
             (map (waypoint (li_corrected last0) (i_time (li_input last0)) c (i_time i) n) (seq 0 (Z.to_nat n))) /\
    pm_state (m_pos m') = last tips (pm_state (m_pos m)) /\
    map r_time out = map t_time tips /\
    (lp_enabled (pp_loop (p_position p)) = false -> map tip_of out = tips) /\
    m_params m' = m_params m.
Proof.
  intros fuel p m i m' out V MP (C1 & C2 & C3 & C4) U EV.
  destruct (upd_move fuel m i m' out U EV) as (p0 & last0 & w & c & sm & n & tip & tips & pred & lm & MP0 & _ & ML & DL & WU & SU & NS & UA & _ & MS & EM).
  rewrite MP in MP0. injection MP0 as <-. destruct (valid_R p V) as (V1 & V2 & V3 & V4).
  exists last0, w, c, n, tips. rsimp. apply Rltb_false in DL.
  destruct (steps_R _ _ _ _ _ _ NS) as (S1 & S2 & _).
  assert (N0 : (0 <= n)%Z).
  { assert (0 <= Zceil ((i_time i - i_time (li_input last0)) * sp_rate (p_sampling p)))%Z; [|unfold INT_MAX in *; lia].
    apply le_IZR. pose proof (Zceil_ub ((i_time i - i_time (li_input last0)) * sp_rate (p_sampling p))). nra. }
  destruct (path_R _ _ _ _ _ _ _ _ _ N0 UA) as (S3 & S4 & S5). rewrite C2 in S5.
  split; [exact ML|]. split; [rewrite EM; reflexivity|]. split; [exact WU|]. split; [rewrite EM; reflexivity|].
  split; [exact DL|]. split; [exact NS|]. split; [lia|]. split.
  { eapply Rle_trans; [apply Zceil_ub|]. apply IZR_le. lia. }
  split; [exact S5|]. split; [rewrite EM; cbn; exact S4|]. split; [|split; [|rewrite EM; reflexivity]].
  - eapply model_stylus_times; [|exact MS]. intros L. rewrite C4 in L.
    eapply stylus_update_nonempty; [| |exact SU]; rewrite C3.
    + apply (validate_params_parts p V).
    + apply (mitigation_normal p V L).
  - intros L. eapply model_stylus_off; [|exact MS]. rewrite C4. exact L.
Qed.

(** The modeled end of the stroke. *)
Lemma end_times : forall p anchor stop k s delta sf out g, 0 < delta -> delta <= g ->
  model_end_of_stroke p s anchor delta k stop = (sf, out) ->
  gaps_within g (t_time s) (map t_time out) /\ (out = [] -> t_time s <= t_time sf <= t_time s + g).
Proof.
  intros p anchor stop. induction k as [|k IH]; intros s delta sf out g D0 DG H; cbn [model_end_of_stroke] in H.
  - inversion H; subst. cbn. split; [exact I|lra].
  - destruct (fltb _ stop); [|destruct (fltb _ f1); [|destruct (fltb _ stop)]].
    + inversion H; subst. cbn. split; [exact I|]. intros _. rsimp. lra.
    + eapply (IH s _ sf out g); [| |exact H]; rsimp; lra.
    + inversion H; subst. cbn. split; [|discriminate]. rsimp. split; [lra|exact I].
    + destruct (model_end_of_stroke _ _ _ _ k _) as [sf' o] eqn:E. inversion H; subst. cbn [map gaps_within].
      destruct (IH _ _ _ _ _ D0 DG E) as [K _]. split; [|discriminate]. split; [|exact K].
      cbn. rsimp. lra.
Qed.

(** What an accepted Up does. *)
Lemma up_R : forall fuel p m i m' out, validate_params p = OkStatus -> m_params m = Some p -> comp_params p m ->
  upd fuel m i m' OkStatus out -> i_event i = EUp ->
  exists last0 n tips1 tip1 tip2 tips2 tips,
    m_last m = Some last0 /\
    i_time (li_input last0) <= i_time i /\
    number_of_steps (pm_state (m_pos m)) (li_input last0) i (p_sampling p) (p_position p) = Ret (IOk n) /\
    (0 <= n < INT_MAX)%Z /\ (i_time i - i_time (li_input last0)) * sp_rate (p_sampling p) <= IZR n /\
    tips1 = scan (p_position p) (pm_state (m_pos m))
             (map (waypoint (li_corrected last0) (i_time (li_input last0)) (i_pos i) (i_time i) n) (seq 0 (Z.to_nat n))) /\
    tip1 = last tips1 (pm_state (m_pos m)) /\
    model_end_of_stroke (p_position p) tip1 (i_pos i) (1 / sp_rate (p_sampling p))
      (Z.to_nat (sp_max_iter (p_sampling p))) (sp_stop (p_sampling p)) = (tip2, tips2) /\
    tips = match tips1 ++ tips2 with [] => [tip2] | l => l end /\
    map r_time out = map t_time tips /\
    (lp_enabled (pp_loop (p_position p)) = false -> map tip_of out = tips).
Proof.
  intros fuel p m i m' out V MP (C1 & C2 & C3 & C4) U EV.
  destruct (upd_up fuel m i m' out U EV) as (p0 & last0 & n & tip1 & tips1 & tip2 & tips2 & sm & lm & MP0 & _ & ML & DL & NS & UA & ME & SU & MS & _).
  rewrite MP in MP0. injection MP0 as <-. destruct (valid_R p V) as (V1 & V2 & V3 & V4).
  rsimp. apply Rltb_false in DL.
  destruct (steps_R _ _ _ _ _ _ NS) as (S1 & S2 & _).
  assert (N0 : (0 <= n)%Z).
  { assert (0 <= Zceil ((i_time i - i_time (li_input last0)) * sp_rate (p_sampling p)))%Z; [|unfold INT_MAX in *; lia].
    apply le_IZR. pose proof (Zceil_ub ((i_time i - i_time (li_input last0)) * sp_rate (p_sampling p))). nra. }
  destruct (path_R _ _ _ _ _ _ _ _ _ N0 UA) as (S3 & S4 & S5). rewrite C2 in S5. rewrite C2 in ME.
  exists last0, n, tips1, tip1, tip2, tips2, (match tips1 ++ tips2 with [] => [tip2] | l => l end).
  split; [exact ML|]. split; [exact DL|]. split; [exact NS|]. split; [lia|]. split.
  { eapply Rle_trans; [apply Zceil_ub|]. apply IZR_le. lia. }
  split; [exact S5|]. split; [exact S4|]. split; [exact ME|]. split; [reflexivity|]. split.
  - eapply model_stylus_times; [|exact MS]. intros L. rewrite C4 in L.
    eapply stylus_update_nonempty; [| |exact SU]; rewrite C3.
    + apply (validate_params_parts p V).
    + apply (mitigation_normal p V L).
  - intros L. eapply model_stylus_off; [|exact MS]. rewrite C4. exact L.
Qed.

Lemma gap_bound : forall dt rate n, 0 < rate -> dt * rate <= n -> dt <= 1 / rate * n.
Proof.
  intros dt rate n R H. apply Rmult_le_reg_r with rate; [exact R|].
  replace (1 / rate * n * rate) with n by (field; lra). exact H.
Qed.

(** ** The invariant: the tip is at the time of the last input, and so is the last
    result. *)
Definition on_time (p : StrokeModelParams) (es : list entry) (c : core) : Prop :=
  t_time (co_tip c) = i_time (li_input (co_last c)) /\
  exists d out0 rest l, es = (d, out0) :: rest /\
    map r_time (List.concat (map snd es)) = i_time d :: l /\
    gaps_within (1 / sp_rate (p_sampling p)) (i_time d) l /\
    last l (i_time d) = i_time (li_input (co_last c)).

Lemma on_time_down : forall fuel p m i m' out, upd fuel m i m' OkStatus out -> i_event i = EDown ->
  on_time p [(i, out)] (core_of p m' (mkLast i (i_pos i))).
Proof.
  intros fuel p m i m' out U EV. destruct (upd_down fuel m i m' out U EV) as (q & sm & pred & _ & _ & _ & _ & _ & -> & ->).
  split; [reflexivity|]. exists i, [down_result i], [], []. repeat split.
Qed.
Lemma on_time_move : forall fuel p m i m' out is lst last', m_params m = Some p -> validate_params p = OkStatus -> comp_params p m ->
  m_last m = Some lst -> on_time p is (core_of p m lst) -> upd fuel m i m' OkStatus out -> i_event i = EMove ->
  m_last m' = Some last' -> on_time p (is ++ [(i, out)]) (core_of p m' last').
Proof.
    intros fuel p m i m' out is lst last' MP V CP ML (J1 & d & out0 & rest & l & J2 & J3 & J4 & J5) U EV ML'.
    destruct (move_R fuel p m i m' out V MP CP U EV) as (last0 & w & c & n & tips & ML0 & ML2 & _ & _ & DL & _ & N & NB & ET & EP & ER & _).
    rewrite ML in ML0. injection ML0 as <-. rewrite ML' in ML2. injection ML2 as ->.
    destruct (valid_R p V) as (_ & _ & V3 & _).
    cbn [core_of co_tip co_last li_input] in *.
    assert (NZ : n = 0%Z -> i_time i = i_time (li_input lst) /\ i_time (li_input lst) = i_time (li_input lst)).
    { intros ->. split; [|reflexivity]. nra. }
    assert (TL : last (map t_time tips) (i_time (li_input lst)) = i_time i).
    { rewrite ET, scan_time. apply waypoint_last; [lia|exact NZ]. }
    unfold on_time. cbn [core_of co_tip co_last li_input]. split.
    + rewrite EP, <- TL, <- J1. symmetry. apply last_map.
    + exists d, out0, (rest ++ [(i, out)]), (l ++ map r_time out). split; [rewrite J2; reflexivity|].
      rewrite map_app, concat_app, map_app. cbn [map List.concat snd app]. rewrite app_nil_r.
      split; [exact (f_equal (fun z => z ++ map r_time out) J3)|].
      split.
      * apply gaps_app. split; [exact J4|]. change (@D real_arith) with R in *. rewrite J5, ER, ET, scan_time.
        replace (i_time (li_input lst)) with (i_time (li_input lst) + (i_time i - i_time (li_input lst)) * (INR 0 / IZR n)) at 1.
        2:{ cbn. unfold Rdiv. ring. }
        apply waypoint_gaps; [lia|exact DL|]. apply gap_bound; assumption.
      * rewrite ER. rewrite <- TL. destruct (map t_time tips) eqn:MT.
        -- rewrite app_nil_r. exact J5.
        -- rewrite <- MT. clear -MT. assert (NE : map t_time tips <> []) by congruence.
           destruct (exists_last NE) as (x & y & ->). rewrite app_assoc, !last_last. reflexivity.
Qed.

Lemma on_time_state : forall fuel hist s es, after_stroke fuel hist s es ->
  exists m rs, run fuel modeler0 hist = Ret (m, rs) /\ tracks s m /\ good m /\ cons m /\
    (forall p last, m_params m = Some p -> m_last m = Some last -> on_time p es (core_of p m last)).
Proof.
  intros fuel hist s es AS. eapply (after_stroke_state fuel (fun _ => True) on_time); [| | |exact AS|apply call_in_true].
  - intros p m i m' out _ MP V G U EV. eapply on_time_down; eassumption.
  - intros p m i m' out is lst last' _ MP V G CP ML J U EV ML'. eapply on_time_move; eassumption.
  - intros p m i m' out is lst e _ MP V G CP ML J U NE. inversion U; subst; try congruence; exact J.
Qed.

(** ** Theorems *)
(** The results of a stroke, from the Down on, follow each other by at most
    1/min_output_rate, never go backwards, and reach the time of the last
    accepted input. *)
Theorem C22_stroke_rate : forall (A := real_arith) fuel hist s p i0 es,
  after_stroke fuel hist s es -> ps_params s = Some p -> ps_last s = Some i0 ->
  exists d out0 rest l, es = (d, out0) :: rest /\
    map r_time (List.concat (map snd es)) = i_time d :: l /\
    gaps_within (1 / sp_rate (p_sampling p)) (i_time d) l /\ last l (i_time d) = i_time i0.
Proof.
  intros A fuel hist s p i0 es AS P L. subst A. destruct (on_time_state _ _ _ _ AS) as (m & rs & _ & (T1 & T2 & _) & _ & _ & K).
  rewrite P in T1. rewrite L in T2. destruct (m_last m) as [last0|] eqn:ML; [|discriminate T2]. injection T2 as ->.
  destruct (K p last0 (eq_sym T1) eq_refl) as (_ & d & out0 & rest & l & K1 & K2 & K3 & K4).
  exists d, out0, rest, l. auto.
Qed.

(** The results of a Move are evenly spaced over the time since the previous
    input, at most 1/min_output_rate apart, the last one at the time of the input;
    there is at least one if time has passed. *)
Theorem C22_move_evenly_spaced : forall (A := real_arith) fuel hist s p i0 i rs out,
  after fuel hist s -> ps_params s = Some p -> ps_last s = Some i0 -> i_event i = EMove ->
  answers fuel hist [CUpdate i rs] = Ret [RResults OkStatus (rs ++ out)] ->
  evenly_spaced (i_time i0) (i_time i) out /\
  gaps_within (1 / sp_rate (p_sampling p)) (i_time i0) (map r_time out) /\
  (i_time i - i_time i0) * sp_rate (p_sampling p) <= INR (List.length out).
Proof.
  intros A fuel hist s p i0 i rs out AF P L EV AN. subst A.
  destruct (accepted_update _ _ _ _ _ _ _ AF AN) as (m & r0 & m' & o & R & (T1 & T2 & _) & G & C & K & U & _).
  apply app_inv_head in K. subst o. rewrite P in T1. rewrite L in T2. symmetry in T1.
  destruct (m_last m) as [lst|] eqn:ML; [|discriminate T2]. injection T2 as ->.
  pose proof (g_valid _ G p T1) as V.
  destruct (move_R fuel p m i m' out V T1 (C p T1 ltac:(left; congruence)) U EV) as (last0 & w & c & n & tips & ML0 & _ & _ & _ & DL & _ & N & NB & ET & EP & ER & _).
  rewrite ML in ML0. injection ML0 as <-. destruct (valid_R p V) as (_ & _ & V3 & _).
  assert (LEN : List.length out = Z.to_nat n).
  { rewrite <- (map_length r_time), ER, map_length, ET, scan_length, map_length, seq_length. reflexivity. }
  assert (IN : INR (List.length out) = IZR n) by (rewrite LEN, INR_IZR_INZ; f_equal; lia).
  split; [|split].
  - intros j r NJ. assert (NT : nth_error (map r_time out) j = Some (r_time r)) by (rewrite nth_error_map, NJ; reflexivity).
    rewrite ER, ET, scan_time in NT. rewrite IN.
    assert (LJ : (j < Z.to_nat n)%nat) by (rewrite <- LEN; apply nth_error_Some; congruence).
    rewrite map_map, nth_error_map, (nth_error_nth' _ 0%nat) in NT by (rewrite seq_length; exact LJ).
    rewrite seq_nth in NT by exact LJ. cbn [option_map waypoint snd plus] in NT. injection NT as <-. reflexivity.
  - rewrite ER, ET, scan_time.
    replace (i_time (li_input lst)) with (i_time (li_input lst) + (i_time i - i_time (li_input lst)) * (INR 0 / IZR n)) at 1
      by (cbn; unfold Rdiv; ring).
    apply waypoint_gaps; [lia|exact DL|]. apply gap_bound; assumption.
  - rewrite IN. exact NB.
Qed.

(** An Up first covers the time since the previous input in the same way, and then
    may go on beyond its own time. *)
Theorem C22_up_spacing : forall (A := real_arith) fuel hist s p i0 i rs out es,
  after_stroke fuel hist s es -> ps_params s = Some p -> ps_last s = Some i0 -> i_event i = EUp ->
  answers fuel hist [CUpdate i rs] = Ret [RResults OkStatus (rs ++ out)] ->
  gaps_within (1 / sp_rate (p_sampling p)) (i_time i0) (map r_time out) /\
  exists path rest, out = path ++ rest /\
    evenly_spaced (i_time i0) (i_time i) path /\
    (i_time i - i_time i0) * sp_rate (p_sampling p) <= INR (List.length path) /\
    gaps_within (1 / sp_rate (p_sampling p)) (i_time i) (map r_time rest).
Proof.
  intros A fuel hist s p i0 i rs out es AS P L EV AN. subst A.
  destruct (on_time_state _ _ _ _ AS) as (m0 & rs0 & R0 & _ & _ & _ & OT).
  assert (AF : after fuel hist s) by (destruct AS as (ma & rsa & Ra & Pa & _); exists ma, rsa; auto).
  destruct (accepted_update _ _ _ _ _ _ _ AF AN) as (m & r0 & m' & o & R & (T1 & T2 & _) & G & C & K & U & _).
  rewrite R0 in R. injection R as -> ->.
  apply app_inv_head in K. subst o. rewrite P in T1. rewrite L in T2. symmetry in T1.
  destruct (m_last m) as [lst|] eqn:ML; [|discriminate T2]. injection T2 as ->.
  pose proof (g_valid _ G p T1) as V. destruct (OT p lst T1 eq_refl) as (TT & _). cbn in TT.
  destruct (up_R fuel p m i m' out V T1 (C p T1 ltac:(left; congruence)) U EV) as (last0 & n & tips1 & tip1 & tip2 & tips2 & tips & ML0 & DL & _ & N & NB & ET & EP & ME & ETS & ER & _).
  rewrite ML in ML0. injection ML0 as <-. destruct (valid_R p V) as (_ & _ & V3 & _).
  assert (D0 : 0 < 1 / sp_rate (p_sampling p)) by (apply Rdiv_lt_0_compat; lra).
  assert (TL : t_time tip1 = i_time i).
  { rewrite EP, <- last_map, ET, scan_time. apply waypoint_last; [lia|]. intros ->. rewrite TT. split; [|reflexivity]. nra. }
  assert (LEN : List.length tips1 = Z.to_nat n) by (rewrite ET, scan_length, map_length, seq_length; reflexivity).
  assert (IN : INR (List.length tips1) = IZR n) by (rewrite LEN, INR_IZR_INZ; f_equal; lia).
  assert (G1 : gaps_within (1 / sp_rate (p_sampling p)) (i_time (li_input lst)) (map t_time tips1)).
  { rewrite ET, scan_time.
    replace (i_time (li_input lst)) with (i_time (li_input lst) + (i_time i - i_time (li_input lst)) * (INR 0 / IZR n)) at 1
      by (cbn; unfold Rdiv; ring).
    apply waypoint_gaps; [lia|exact DL|]. apply gap_bound; assumption. }
  destruct (end_times _ _ _ _ _ _ _ _ (1 / sp_rate (p_sampling p)) D0 (Rle_refl _) ME) as [G2 G3]. rewrite TL in G2, G3.
  assert (TPS : exists tips3, tips = tips1 ++ tips3 /\ gaps_within (1 / sp_rate (p_sampling p)) (i_time i) (map t_time tips3)).
  { rewrite ETS. destruct (tips1 ++ tips2) as [|x l] eqn:E.
    - apply app_eq_nil in E. destruct E as [E1 E2]. exists [tip2]. rewrite E1. split; [reflexivity|]. cbn. split; [apply G3; exact E2|exact I].
    - exists tips2. split; [symmetry; exact E|exact G2]. }
  destruct TPS as (tips3 & ETS3 & G4). rewrite ETS3, map_app in ER.
  assert (SPL : exists path rest, out = path ++ rest /\ map r_time path = map t_time tips1 /\ map r_time rest = map t_time tips3).
  { exists (firstn (List.length tips1) out), (skipn (List.length tips1) out). split; [symmetry; apply firstn_skipn|].
    rewrite <- firstn_map, <- skipn_map, ER. rewrite <- (map_length t_time tips1).
    rewrite firstn_app, skipn_app, firstn_all, skipn_all, Nat.sub_diag. cbn. rewrite app_nil_r. auto. }
  destruct SPL as (path & rest & EO & EP1 & EP2). split.
  - rewrite EO, map_app, EP1, EP2. apply gaps_app. split; [exact G1|].
    refine (eq_ind _ (fun z => gaps_within _ z _) G4 _ _).
    rewrite <- TL, EP, <- TT. symmetry. apply last_map.
  - exists path, rest. split; [exact EO|].
    assert (LP : List.length path = List.length tips1) by (rewrite <- (map_length r_time), EP1, map_length; reflexivity).
    split; [|split; [rewrite LP, IN; exact NB|rewrite EP2; exact G4]].
    intros j r NJ. assert (NT : nth_error (map r_time path) j = Some (r_time r)) by (rewrite nth_error_map, NJ; reflexivity).
    rewrite EP1, ET, scan_time in NT. rewrite LP, IN.
    assert (LJ : (j < Z.to_nat n)%nat) by (rewrite <- LEN, <- LP; apply nth_error_Some; congruence).
    rewrite map_map, nth_error_map, (nth_error_nth' _ 0%nat) in NT by (rewrite seq_length; exact LJ).
    rewrite seq_nth in NT by exact LJ. cbn [option_map waypoint snd plus] in NT. injection NT as <-. reflexivity.
Qed.

(** ** C23 *)
Lemma gaps_sorted : forall g l t, gaps_within g t l ->
  Sorted Rle (t :: l) /\ Forall (fun u => t <= u <= last l t) (t :: l).
Proof.
  intros g l. induction l as [|u l IH]; intros t H.
  - split; [repeat constructor|]. constructor; [cbn; lra|constructor].
  - destruct H as [H1 H2]. destruct (IH u H2) as [I1 I2]. split.
    + constructor; [exact I1|]. constructor. lra.
    + rewrite last_cons. assert (K : u <= last l u) by (inversion I2; subst; lra).
      constructor; [lra|]. eapply Forall_impl; [|exact I2]. cbn. intros a ?. lra.
Qed.

(** The times of all results of a stroke, in order, never decrease, and lie
    between the time of its Down and that of its last accepted input. *)
Theorem C23_times_never_decrease : forall (A := real_arith) fuel hist s i0 es,
  after_stroke fuel hist s es -> ps_last s = Some i0 ->
  exists d, hd_error (map fst es) = Some d /\
    let times := map r_time (List.concat (map snd es)) in
    Sorted Rle times /\ Forall (fun t => i_time d <= t <= i_time i0) times /\ last times 0 = i_time i0.
Proof.
  intros A fuel hist s i0 es AS L. subst A.
  assert (P : exists p, ps_params s = Some p).
  { destruct (on_time_state _ _ _ _ AS) as (m & rs & _ & (T1 & T2 & _) & G & _ & K).
    rewrite L in T2. destruct (m_last m) as [lst|] eqn:ML; [|discriminate T2].
    destruct (m_params m) as [p|] eqn:MP; [exists p; congruence|]. exfalso. destruct (g_none _ G MP) as (_ & _ & K2 & _). congruence. }
  destruct P as (p & P). destruct (C22_stroke_rate _ _ _ _ _ _ AS P L) as (d & o & rest & l & -> & E & GW & LL).
  exists d. split; [reflexivity|]. cbv zeta. rewrite E. destruct (gaps_sorted _ _ _ GW) as [S1 S2].
  split; [exact S1|]. split; [rewrite <- LL; exact S2|]. rewrite last_cons. exact LL.
Qed.

(** The same including the results of the Up that ends the stroke; these are never
    before the last input. *)
Theorem C23_up_times_never_decrease : forall (A := real_arith) fuel hist s p i0 i rs out es,
  after_stroke fuel hist s es -> ps_params s = Some p -> ps_last s = Some i0 -> i_event i = EUp ->
  answers fuel hist [CUpdate i rs] = Ret [RResults OkStatus (rs ++ out)] ->
  Sorted Rle (map r_time (List.concat (map snd es) ++ out)) /\
  Forall (fun r => i_time i0 <= r_time r) out.
Proof.
  intros A fuel hist s p i0 i rs out es AS P L EV AN. subst A.
  destruct (C22_stroke_rate _ _ _ _ _ _ AS P L) as (d & o & rest & l & E0 & E & GW & LL).
  destruct (C22_up_spacing _ _ _ _ _ _ _ _ _ AS P L EV AN) as [GU _].
  split.
  - rewrite map_app.
    assert (G2 : gaps_within (1 / sp_rate (p_sampling p)) (i_time d) (l ++ map r_time out)).
    { apply gaps_app. split; [exact GW|]. refine (eq_ind _ (fun z => gaps_within _ z _) GU _ (eq_sym LL)). }
    refine (eq_ind _ (fun z => Sorted Rle (z ++ map r_time out)) _ _ (eq_sym E)). apply (gaps_sorted _ _ _ G2).
  - destruct (gaps_sorted _ _ _ GU) as [_ S2]. inversion S2; subst. rewrite Forall_map in H2.
    eapply Forall_impl; [|exact H2]. cbn. intros a ?. lra.
Qed.
