(** * C51 in floating point for strokes of any length. *)
From Coq Require Import ZArith Bool List Sorted Reals Lra Lia Psatz.
From Flocq Require Import Core.Core IEEE754.BinarySingleNaN.
From Verif Require Export Props_FAccept Props_FBounded.
Import ListNotations.
Open Scope R_scope.

Lemma boxed_tame : forall acosf pp rate b t, springy acosf pp rate -> B60 <= b <= 1073741824 -> boxed acosf pp 4 (33 / 32 * b) t -> tame acosf t.
Proof.
  intros acosf pp rate b t [SS [FD DD] MM RT SR] BB (X & Y & AC). unfold B60 in BB.
  set (D := B2R (pp_drag pp : float32)) in *. assert (DU : D <= 2048).
  { destruct (Rle_lt_dec D 2048) as [H|H]; [exact H|]. exfalso. assert (2048 * 2048 <= D * D) by (apply Rmult_le_compat; lra).
    assert (/ 1048576 * (2048 * 2048) <= B2R (pp_spring pp : float32) * (D * D)) by (apply Rmult_le_compat; lra). lra. }
  assert (VB : D * (9 / 8 * (4 * (33 / 32 * b))) <= 2048 * (9 / 8 * (4 * (33 / 32 * b)))) by (apply Rmult_le_compat; try lra; repeat apply Rmult_le_pos; lra).
  assert (D0 : 0 < D) by lra. assert (B0 : 0 <= 33 / 32 * b) by lra. assert (K0 : 0 <= 4) by lra.
  destruct (fball_bounds _ _ _ _ _ _ MM D0 K0 B0 X) as [X1 X2]. destruct (fball_bounds _ _ _ _ _ _ MM D0 K0 B0 Y) as [Y1 Y2].
  fold D in X2, Y2. destruct X as (XF & XV & _), Y as (YF & YV & _).
  assert (BIG : 1125899906842624 <= IZR (2 ^ 76)) by (apply IZR_le; lia).
  assert (P1 : 4 * (33 / 32 * b) <= IZR (2 ^ 76)) by (eapply Rle_trans; [|exact BIG]; lra).
  assert (P2 : D * (9 / 8 * (4 * (33 / 32 * b))) <= IZR (2 ^ 76)) by (eapply Rle_trans; [|exact BIG]; lra).
  split; split; (split; [assumption|]); eapply Rle_trans; try eassumption.
Qed.

(** Without a limit on the angle between results, [turns_within] holds. *)
Lemma no_angle_turns : forall acosf (p : StrokeModelParams (A := ieee acosf)) k, validate_params p = OkStatus -> dltb d0 (sp_max_angle (p_sampling p)) = false -> turns_within p k.
Proof.
  intros acosf p k V OFF. left. destruct (deqb (sp_max_angle (p_sampling p)) (dofZ (-1))) eqn:NE; [reflexivity|]. exfalso.
  destruct (validate_params_parts p V) as (_ & _ & VS & _). unfold validate_sampling in VS.
  apply and_then_ok in VS. destruct VS as [_ VS]. apply and_then_ok in VS. destruct VS as [_ VS]. apply and_then_ok in VS. destruct VS as [_ VS].
  destruct (Z.ltb _ _); [discriminate VS|]. apply and_then_ok in VS. destruct VS as [_ VS]. rewrite NE in VS. cbn [negb] in VS.
  apply and_then_ok in VS. destruct VS as [VS _]. apply gt0_d_F in VS. destruct VS as [F P]. cbn [dltb ieee] in OFF. rewrite d0_eq in OFF.
  apply (ltb_false_R 53 1024) in OFF; [|reflexivity|exact F]. cbn [B2R] in OFF. lra.
Qed.

(** In a stroke of any length whose inputs are in the box and have times on a grid, the
    next Move or Up is accepted, and its results are finite and near the box. *)
Theorem C51_float_any_input_accepted : forall acosf (A := ieee acosf) fuel hist s (p : StrokeModelParams (A := ieee acosf))
    es (seen : list (Input (A := ieee acosf))) b (i0 i : Input (A := ieee acosf)) rs k,
  (1 <= fuel)%nat -> acosf_sane acosf -> calls_safe (hist ++ [CUpdate i rs]) ->
  Forall (call_input_ok (coarse_input b)) hist -> coarse_input b i -> bpow radix2 (-60) <= b <= bpow radix2 30 ->
  after_seen fuel hist s es seen -> ps_params s = Some p -> ps_last s = Some i0 -> damped_params p ->
  (i_event i = EMove \/ i_event i = EUp) -> input_eqb i0 i = false ->
  B2R (i_time i0 : float64) <= B2R (i_time i : float64) ->
  within_steps p k i0 i -> (k <= sp_max_outputs (p_sampling p))%Z ->
  exists out, answers fuel hist [CUpdate i rs] = Ret [RResults OkStatus (rs ++ out)] /\
    (i_event i = EMove -> (Z.of_nat (List.length out) <= k)%Z) /\
    Forall (fun r : Result (A := ieee acosf) => all_finite r /\ in_box (17 / 4 * b) (r_pos r)) out.
Proof.
  intros acosf A fuel hist s p es seen b i0 i rs k HF SA T FH CI BB AS P L O EV NE TI WS KM. subst A.
  pose proof (seen_in _ fuel hist s es seen AS FH) as [F1 F2].
  assert (BB2 : B60 <= b <= 1073741824) by (unfold B60; exact BB).
  destruct (orderly_state fuel hist s es seen AS) as (m & rs0 & R & (T1 & T2 & _) & G & _ & J).
  destruct (binv_state acosf fuel hist s es seen b BB2 AS) as (m2 & rs2 & R2 & _ & _ & _ & J2). rewrite R in R2. apply ret_inj in R2. apply (f_equal fst) in R2. cbn [fst] in R2. subst m2.
  pose proof (eq_trans (eq_sym T1) P) as MP. pose proof (eq_trans (eq_sym T2) L) as ML.
  destruct (m_last m) as [lst|] eqn:EL; [|discriminate ML]. apply some_inj in ML.
  destruct (J p lst MP eq_refl) as [SO (l & EA)]. destruct (J2 p lst MP eq_refl) as (_ & _ & BI).
  assert (BX : boxed_inputs b p (map fst es) seen) by (apply coarse_boxed; [exact (dm_raw p O)|exact F1|exact F2|exact SO]).
  specialize (BI (conj O BX)). cbn [core_of co_last] in EA. rewrite ML in EA.
  assert (C0 : coarse_input b i0) by (rewrite EA in F1; apply Forall_app in F1; apply (Forall_inv (proj2 F1))).
  assert (AF1 : after fuel hist s) by (destruct AS as (ma & rsa & Ra & Pa & _); exists ma, rsa; auto).
  assert (TM : forall m' rs', run fuel modeler0 hist = Ret (m', rs') -> tame acosf (pm_state (m_pos m'))).
  { intros m' rs' R'. rewrite R in R'. apply ret_inj in R'. apply (f_equal fst) in R'. cbn [fst] in R'. subst m'.
    destruct (bi_tip _ _ _ _ _ _ BI) as [BT _]. exact (boxed_tame acosf _ _ b _ (damped_springy acosf p O) BB2 BT). }
  destruct (next_tame acosf fuel hist s p i0 i rs k HF SA T AF1 P L (dm_steady p O) TM (proj1 C0) (proj1 CI) EV NE TI
    (ticking_gap acosf i0 i (coarse_ticking acosf b i0 C0) (coarse_ticking acosf b i CI)) WS (no_angle_turns acosf p k (g_valid _ G p MP) (dm_angle p O)) KM) as (out & AN & LO).
  exists out. split; [exact AN|]. split; [exact LO|].
  exact (C52_float_any_update_in_box acosf fuel hist s p es seen b i rs out FH CI BB AS P O AN).
Qed.

(** A whole stroke of any number of Moves: every input is accepted. *)
Theorem C51_float_any_stroke_accepted : forall acosf (A := ieee acosf) fuel (p : StrokeModelParams (A := ieee acosf)) (d : Input (A := ieee acosf)) ms b k,
  (1 <= fuel)%nat -> acosf_sane acosf -> validate_params p = OkStatus -> damped_params p -> bpow radix2 (-60) <= b <= bpow radix2 30 ->
  i_event d = EDown -> Forall (fun i => i_event i = EMove) ms ->
  Forall (coarse_input b) (d :: ms) -> Forall (orientation_acceptable acosf) (d :: ms) ->
  paced_f p k d ms -> (k <= sp_max_outputs (p_sampling p))%Z ->
  (Z.of_nat (List.length (drawing p (d :: ms))) <= INT_MAX)%Z ->
  exists s es, after_seen fuel (drawing p (d :: ms)) s es (d :: ms) /\ map fst es = d :: ms /\
    ps_params s = Some p /\ ps_last s = Some (last ms d) /\
    Forall (fun e => i_event (fst e) = EMove -> (Z.of_nat (List.length (snd e)) <= k)%Z) es /\
    Forall (fun r : Result (A := ieee acosf) => all_finite r /\ in_box (17 / 4 * b) (r_pos r)) (List.concat (map snd es)).
Proof.
  intros acosf A fuel p d ms b k HF SA V O BB ED. subst A. intros EM CI OR PW KM LN.
  assert (FD : forall is : list (Input (A := ieee acosf)), Forall (coarse_input b) is -> Forall (call_input_ok (coarse_input b)) (drawing p is)).
  { intros is F. constructor; [exact Logic.I|]. apply Forall_map. exact F. }
  enough (K : exists s es, after_seen fuel (drawing p (d :: ms)) s es (d :: ms) /\ map fst es = d :: ms /\
      ps_params s = Some p /\ ps_last s = Some (last ms d) /\ Forall (fun e => i_event (fst e) = EMove -> (Z.of_nat (List.length (snd e)) <= k)%Z) es).
  { destruct K as (s & es & AS & ME & PP & PL & CT). exists s, es. do 5 (split; [assumption|]).
    apply (C52_float_any_stroke_in_box acosf fuel _ s p es (d :: ms) b (FD _ CI) BB AS); [unfold in_stroke; rewrite PL; reflexivity|exact PP|exact O]. }
  assert (SAFE : forall is : list (Input (A := ieee acosf)), Forall (orientation_acceptable acosf) is -> (Z.of_nat (List.length (drawing p is)) <= INT_MAX)%Z -> calls_safe (drawing p is)).
  { intros is OI LI. constructor.
    - exact LI.
    - constructor; [pose proof (dm_max p O); unfold INT_MAX; lia|]. apply Forall_map. apply Forall_forall. intros; exact Logic.I.
    - right. unfold no_call. cbn. apply forallb_forall. intros c IN. apply in_map_iff in IN. destruct IN as (i & <- & _). reflexivity.
    - constructor; [exact Logic.I|]. apply Forall_map. exact OI. }
  revert EM CI OR PW LN. induction ms as [|i ms IH] using rev_ind; intros EM CI OR PW LN.
  - assert (R0 : answers fuel [] [CReset p] = Ret [RStatus OkStatus]).
    { unfold answers. cbn [run obind step reset_params]. unfold reset_params. rewrite V. reflexivity. }
    assert (A0 : @after_seen (ieee acosf) fuel [] pstate0 [] []) by (exists modeler0, []; repeat split).
    destruct (one_more _ _ _ _ _ (CReset p) _ A0 ltac:(discriminate) R0) as (si & _ & _ & A1). cbn [sstep pstep si_cur si_seen sinputs0 app] in A1.
    assert (AF1 : after fuel [CReset p] (mkP (Some p) None None)) by (destruct A1 as (m & rs & R & P & _); exists m, rs; auto).
    pose proof (SAFE [d] OR LN) as T1.
    pose proof (C51_float_down_accepted acosf fuel [CReset p] _ p d [] HF (sane_sound _ SA) T1 AF1 eq_refl eq_refl (proj1 (Forall_inv CI)) ED) as AD.
    destruct (one_more _ _ _ _ _ (CUpdate d []) _ A1 ltac:(discriminate) AD) as (sj & _ & _ & A2). cbn [sstep pstep] in A2. rewrite ED in A2.
    cbn [si_cur si_seen app] in A2. eexists _, _. split; [exact A2|]. repeat split. constructor; [|constructor]. cbn [fst]. intros H. congruence.
  - apply Forall_app in EM. destruct EM as [EM EI]. apply Forall_inv in EI.
    change (d :: ms ++ [i]) with ((d :: ms) ++ [i]) in CI, OR, LN |- *.
    pose proof CI as CI0. apply Forall_app in CI0. destruct CI0 as [CI' Ci]. apply Forall_inv in Ci.
    pose proof OR as OR0. apply Forall_app in OR0. destruct OR0 as [OR' _].
    assert (ED' : drawing p ((d :: ms) ++ [i]) = drawing p (d :: ms) ++ [CUpdate i []]) by (unfold drawing; rewrite map_app; reflexivity).
    assert (LN' : (Z.of_nat (List.length (drawing p (d :: ms))) <= INT_MAX)%Z).
    { rewrite ED', app_length in LN. rewrite Nat2Z.inj_add in LN. cbn [List.length Z.of_nat] in LN. lia. }
    assert (PW' : paced_f p k d ms /\ input_eqb (last ms d) i = false /\ B2R (i_time (last ms d) : float64) <= B2R (i_time i : float64) /\ within_steps p k (last ms d) i).
    { clear - PW. revert d PW. induction ms as [|j ms IH]; intros d PW; [cbn in *; tauto|].
      cbn [app paced_f] in *. destruct PW as (P1 & P2 & P3 & P4). apply IH in P4. rewrite last_cons. tauto. }
    destruct PW' as (PW' & P1 & P2 & P3).
    destruct (IH EM CI' OR' PW' LN') as (s & es & AS & ME & PP & PL & CT).
    assert (T : calls_safe (drawing p (d :: ms) ++ [CUpdate i []])) by (rewrite <- ED'; apply SAFE; [exact OR|exact LN]).
    destruct (C51_float_any_input_accepted acosf fuel _ s p es (d :: ms) b (last ms d) i [] k HF SA T (FD _ CI') Ci BB AS PP PL O (or_introl EI) P1 P2 P3 KM) as (out & AN & LO & _).
    destruct (one_more_move _ _ _ _ _ _ _ _ AS EI AN) as (s' & AS' & PP' & PL').
    exists s', (es ++ [(i, out)]). rewrite ED', last_last. split; [exact AS'|]. split; [|split; [congruence|split; [exact PL'|]]].
    + etransitivity; [apply map_app|]. cbn [map fst]. apply (f_equal (fun l => l ++ [i])) in ME. exact ME.
    + apply Forall_app. split; [exact CT|]. constructor; [exact LO|constructor].
Qed.
