(** * C51: whole strokes are accepted (exact arithmetic). *)
From Coq Require Import ZArith Bool List Sorted Reals Lra Lia Psatz.
From Flocq Require Import Core.Raux.
From Verif Require Export Props_Predict Props_Total.
Import ListNotations.
Open Scope R_scope.

(** ** One more call *)
Section OneMore.
Context {A : Arith}.

Lemma srun_app : forall (cs1 cs2 : list call) (rs1 rs2 : list reply) s, List.length cs1 = List.length rs1 ->
  srun s (cs1 ++ cs2) (rs1 ++ rs2) = srun (srun s cs1 rs1) cs2 rs2.
Proof.
  induction cs1 as [|c cs1 IH]; intros cs2 [|r rs1] rs2 s E; try discriminate E; [reflexivity|]. cbn. apply IH. injection E as E. exact E.
Qed.
Lemma clean_snoc : forall (cs1 : list call) c (rs1 : list reply) r s, List.length cs1 = List.length rs1 ->
  clean s cs1 rs1 -> c <> CRestore -> clean s (cs1 ++ [c]) (rs1 ++ [r]).
Proof.
  induction cs1 as [|c1 cs1 IH]; intros c [|r1 rs1] r s E C N; try discriminate E.
  - cbn. split; [|exact Logic.I]. intros E'. congruence.
  - cbn in *. destruct C as [C1 C2]. split; [exact C1|]. apply IH; auto.
Qed.

Lemma one_more : forall fuel hist s es seen c r, after_seen fuel hist s es seen -> c <> CRestore ->
  answers fuel hist [c] = Ret [r] ->
  exists si, si_cur si = es /\ si_seen si = seen /\
    after_seen fuel (hist ++ [c]) (pstep s c r) (si_cur (sstep si c r)) (si_seen (sstep si c r)).
Proof.
  intros fuel hist s es seen c r (m & rs & R & P & S1 & S2 & C) N AN.
  exists (srun sinputs0 hist rs). split; [exact S1|]. split; [exact S2|].
  unfold answers in AN. rewrite R in AN. cbn [obind run] in AN.
  destruct (step fuel m c) as [[m' r']| |] eqn:ST; cbn [obind] in AN; try discriminate AN. apply ret_inj in AN. injection AN as ->.
  pose proof (run_length _ _ _ _ _ R) as L.
  exists m', (rs ++ [r]). split; [rewrite run_app, R; cbn [obind run]; rewrite ST; reflexivity|].
  split; [rewrite prun_app by exact L; cbn; rewrite P; reflexivity|].
  rewrite srun_app by (symmetry; exact L). split; [reflexivity|]. split; [reflexivity|].
  apply clean_snoc; [symmetry; exact L|exact C|exact N].
Qed.

Lemma one_more_move : forall fuel hist s es seen i rs out, after_seen fuel hist s es seen -> i_event i = EMove ->
  answers fuel hist [CUpdate i rs] = Ret [RResults OkStatus (rs ++ out)] ->
  exists s', after_seen fuel (hist ++ [CUpdate i rs]) s' (es ++ [(i, out)]) (seen ++ [i]) /\
    ps_params s' = ps_params s /\ ps_last s' = Some i.
Proof.
  intros fuel hist s es seen i rs out AS EV AN.
  destruct (one_more _ _ _ _ _ (CUpdate i rs) _ AS ltac:(discriminate) AN) as (si & <- & <- & AS').
  cbn [sstep pstep] in AS'. rewrite EV in AS'. cbn [si_cur si_seen] in AS'. rewrite appended_app in AS'.
  eexists. split; [exact AS'|]. split; reflexivity.
Qed.

(** The calls that draw a stroke. *)
Definition drawing (p : StrokeModelParams) (is : list Input) : list call :=
  CReset p :: map (fun i => CUpdate i []) is.
End OneMore.

#[local] Existing Instance real_arith.

(** ** Whole strokes *)
(** Consecutive inputs differ, are in order and not too far apart in time. *)
Fixpoint paced_well (sp : SamplingParams) (i : Input) (l : list Input) : Prop :=
  match l with
  | [] => True
  | j :: l' => j <> i /\ i_time i <= i_time j /\ (i_time j - i_time i) * sp_rate sp <= IZR (sp_max_outputs sp) /\ paced_well sp j l'
  end.

Lemma tame_drawing : forall p is, (sp_max_outputs (p_sampling p) < INT_MAX)%Z ->
  Forall (fun i => i_orient i <= 2 * PI) is -> (Z.of_nat (List.length is) < INT_MAX)%Z -> tame (drawing p is).
Proof.
  intros p is M O L. constructor.
  - cbn [drawing List.length]. rewrite map_length. lia.
  - constructor; [exact M|]. apply Forall_map. exact O.
  - right. unfold no_call. cbn. apply forallb_forall. intros c IN. apply in_map_iff in IN. destruct IN as (i & <- & _). reflexivity.
Qed.

Theorem C51_whole_stroke_accepted : forall (A := real_arith) fuel p d ms,
  (1 <= fuel)%nat -> validate_params p = OkStatus -> (sp_max_outputs (p_sampling p) < INT_MAX)%Z ->
  (sp_max_angle (p_sampling p) = -1 \/ PI / sp_max_angle (p_sampling p) <= IZR (sp_max_outputs (p_sampling p))) ->
  i_event d = EDown -> Forall (fun i => i_event i = EMove) ms ->
  Forall (fun i => i_orient i <= 2 * PI) (d :: ms) -> (Z.of_nat (List.length (d :: ms)) < INT_MAX)%Z ->
  paced_well (p_sampling p) d ms ->
  exists s es, after_seen fuel (drawing p (d :: ms)) s es (d :: ms) /\ map fst es = d :: ms /\
    ps_params s = Some p /\ ps_last s = Some (last ms d).
Proof.
  intros A fuel p d ms HF V M MA ED. subst A. induction ms as [|i ms IH] using rev_ind; intros EM O L PW.
  - pose proof (tame_drawing p [] M (Forall_nil _) ltac:(reflexivity)) as T0.
    assert (R0 : answers fuel [] [CReset p] = Ret [RStatus OkStatus]).
    { unfold answers. cbn [run obind step reset_params]. unfold reset_params. rewrite V. reflexivity. }
    assert (A0 : after_seen fuel [] pstate0 [] []) by (exists modeler0, []; repeat split).
    destruct (one_more _ _ _ _ _ (CReset p) _ A0 ltac:(discriminate) R0) as (si & _ & _ & A1). cbn [sstep pstep si_cur si_seen sinputs0 app] in A1.
    pose proof (tame_drawing p [d] M O ltac:(reflexivity)) as T1.
    assert (AF : after fuel [CReset p] (mkP (Some p) None None)) by (destruct A1 as (m & rs & R & P & _); exists m, rs; auto).
    pose proof (C51_down_accepted fuel [CReset p] _ p d [] HF T1 AF eq_refl eq_refl ED) as AD.
    destruct (one_more _ _ _ _ _ (CUpdate d []) _ A1 ltac:(discriminate) AD) as (sj & _ & _ & A2). cbn [sstep pstep] in A2. rewrite ED in A2.
    cbn [si_cur si_seen app] in A2. eexists _, _. split; [exact A2|]. repeat split.
  - apply Forall_app in EM. destruct EM as [EM EI]. inversion EI as [|? ? EI1 _]; subst.
    assert (O' : Forall (fun i => i_orient i <= 2 * PI) (d :: ms)) by (rewrite app_comm_cons in O; apply Forall_app in O; apply O).
    assert (L' : (Z.of_nat (List.length (d :: ms)) < INT_MAX)%Z) by (cbn [List.length] in *; rewrite app_length in L; cbn [List.length] in L; lia).
    assert (PW' : paced_well (p_sampling p) d ms /\ i <> last ms d /\ i_time (last ms d) <= i_time i /\ (i_time i - i_time (last ms d)) * sp_rate (p_sampling p) <= IZR (sp_max_outputs (p_sampling p))).
    { clear - PW. revert d PW. induction ms as [|j ms IH]; intros d PW; [cbn in *; tauto|].
      cbn [app paced_well] in *. destruct PW as (P1 & P2 & P3 & P4). apply IH in P4. rewrite last_cons. tauto. }
    destruct PW' as (PW' & P1 & P2 & P3).
    destruct (IH EM O' L' PW') as (s & es & AS & ME & PP & PL).
    assert (AF : after fuel (drawing p (d :: ms)) s) by (destruct AS as (ma & rsa & Ra & Pa & _); exists ma, rsa; auto).
    assert (ED' : drawing p (d :: ms ++ [i]) = drawing p (d :: ms) ++ [CUpdate i []]) by (unfold drawing; cbn [map]; rewrite map_app; reflexivity).
    assert (T : tame (drawing p (d :: ms) ++ [CUpdate i []])) by (rewrite <- ED'; apply tame_drawing; assumption).
    destruct (C51_next_input_accepted fuel _ s p (last ms d) i [] HF T AF PP PL (or_introl EI1) P1 P2 P3 MA) as (out & AN).
    destruct (one_more_move _ _ _ _ _ _ _ _ AS EI1 AN) as (s' & AS' & PP' & PL').
    exists s', (es ++ [(i, out)]). rewrite ED', last_last. split; [exact AS'|]. split; [|split; [congruence|exact PL']].
    etransitivity; [apply map_app|]. cbn [map fst]. apply (f_equal (fun l => l ++ [i])) in ME. exact ME.
Qed.

(** ** Kalman predictions *)
Lemma oriented_nodiv : forall fuel hist, (1 <= fuel)%nat ->
  Forall (fun c => match c with CUpdate i _ => i_orient i <= 2 * PI | _ => True end) hist -> nodiv (run fuel modeler0 hist).
Proof.
  intros [|fuel] hist HF T; [lia|].
  eapply (run_nodiv (S fuel) orientation_ok SR SR_step); [|exact good0|exact cons0| |].
  - intros tips sm lm pt. apply model_stylus_total.
  - split; [constructor|discriminate].
  - eapply Forall_impl; [|exact T]. intros [] H; try exact Logic.I. exact H.
Qed.

Lemma R_to_int_some : forall z, (0 <= z <= INT_MAX)%Z -> R_to_int (IZR z) = Some z.
Proof.
  intros z B. unfold R_to_int. rewrite Ztrunc_IZR. rewrite (proj2 (Z.leb_le INT_MIN z)), (proj2 (Z.leb_le z INT_MAX)); [reflexivity|lia|unfold INT_MIN; lia].
Qed.

(** Predict with Kalman prediction is well defined and succeeds if neither part of
    the prediction has more than INT_MAX results. *)
Theorem C45_kalman_predict_defined : forall (A := real_arith) fuel hist s p kp es seen rs,
  (1 <= fuel)%nat -> Forall (fun c => match c with CUpdate i _ => i_orient i <= 2 * PI | _ => True end) hist ->
  after_seen fuel hist s es seen -> ps_params s = Some p -> in_stroke s = true -> p_prediction p = PredKalman kp ->
  lp_enabled (pp_loop (p_position p)) = false -> sorted_if_smoothing (p_wobble p) seen ->
  exists ws z, List.length ws = List.length es /\
    subseq (combine (map fst es) ws) (smooth_points (p_wobble p) seen) /\
    back (List.concat (map snd es)) = Some z /\
    let rate := sp_rate (p_sampling p) in
    (kp_interval kp * rate <= IZR INT_MAX ->
     (catch_up_steps kp rate z (estimate kp (combine (map fst es) ws)) <= INT_MAX)%Z ->
     exists out, answers fuel hist [CPredict rs] = Ret [RResults OkStatus out]).
Proof.
  intros A fuel hist s p kp es seen rs HF OR AS P IS PK L SO. subst A.
  assert (ST : after_stroke fuel hist s es) by (apply after_seen_stroke; eauto).
  destruct (remembered_state _ _ _ _ _ AS) as (m & rs0 & R0 & (T1 & T2 & _) & G & C & RM).
  destruct (on_spring_state _ _ _ _ ST) as (m1 & rs1 & R1 & _ & _ & _ & SP). rewrite R0 in R1. injection R1 as <- <-.
  assert (MQ : m_params m = Some p) by congruence. destruct (m_last m) as [last0|] eqn:ML; [|unfold in_stroke in IS; rewrite T2 in IS; discriminate IS].
  pose proof (g_valid _ G p MQ) as V.
  pose proof (C p MQ ltac:(left; congruence)) as CP. pose proof CP as (C1 & C2 & C3 & C4).
  destruct (RM p last0 MQ eq_refl) as (cs & ws & [H1 H2 H3 H4 H5 H6]).
  destruct (SP p last0 MQ eq_refl) as (d & es' & ws' & -> & LW & _ & _ & KD). destruct (KD L) as [_ TIP]. clear KD.
  cbn [core_of co_w co_s co_last co_pred co_tip] in *.
  assert (ON : prediction_on p = true) by (unfold prediction_on; rewrite PK; reflexivity). specialize (H6 ON). rewrite ON in H6.
  destruct (valid_kalman_R p kp V PK) as (V1 & V2 & V3 & V4 & V5 & V6 & V7 & V8 & V9 & V10 & V11).
  destruct (valid_R p V) as (_ & _ & VR & _).
  destruct (predicting_kalman p kp _ _ PK V4 H6) as (k & EK & K1 & K2 & K3 & K4 & K5 & K6).
  set (es := (d, [down_result d]) :: es') in *.
  set (z := last (List.concat (map snd es')) (down_result d)) in *.
  exists ws, z. split; [exact H3|]. split.
  { unfold smooth_points. rewrite <- (smoothing_spec p _ _ _ V H1 SO). exact H4. }
  split.
  { cbn [es map snd List.concat]. cbn [app]. unfold z. clear. generalize (down_result d). generalize (List.concat (map snd es')).
    induction l as [|a l IH]; intros x; [reflexivity|]. rewrite back_cons, last_cons. apply IH. }
  cbv zeta. intros B1 B2. set (rate := sp_rate (p_sampling p)) in *.
  set (l := combine (map fst es) ws) in *.
  assert (PC : exists tips, kpred_predict k (pm_state (m_pos m)) = Ret tips).
  { unfold kpred_predict. destruct (kpred_estimate k) as [e|] eqn:EE; [|eauto].
    assert (e = estimate kp l) by (apply (estimate_R kp l k e (Rlt_le _ _ V1) V2 K1 K4 K5 K6 EE)). subst e.
    destruct (k_last k) as [q|]; [|eauto]. rewrite K1, K2. fold rate. unfold cubic_connector, connector_points, kpred_number_of_points.
    destruct (filtering_kalman _ _ _ _ (Rlt_le _ _ V1) V2 K5) as [_ IX]. unfold xs_of in IX. rewrite map_length in IX.
    rewrite (confidence_R kp k l q K1) by (try assumption; lra). rewrite K1, K2, TIP. fold rate.
    rewrite !rmax, rmin, !rmaxs, distance_R, !magnitude_R. cbn [tip_of t_pos t_vel]. rsimp.
    change 1 with (IZR 1) at 1. change 0 with (IZR 0) at 1. rewrite !rmax_IZR.
    set (n1 := Z.max _ 1). assert (E1 : n1 = catch_up_steps kp rate z (estimate kp l)).
    { unfold n1, catch_up_steps. rewrite Z.max_comm. do 2 f_equal. unfold Rdiv. rewrite Rmult_1_l, Rinv_inv. reflexivity. }
    rewrite (R_to_int_some n1) by (split; [lia|rewrite E1; exact B2]). cbn [to_int obind].
    pose proof (confidence_range kp l q (estimate kp l) V11 V7) as CR.
    assert (PI1 : 0 < kp_interval kp * rate) by (apply Rmult_lt_0_compat; assumption).
    rewrite R_to_int_some; [cbn [to_int]; eauto|]. split; [lia|]. apply Z.max_lub; [unfold INT_MAX; lia|].
    rewrite <- (Zceil_IZR INT_MAX). apply Zceil_le. apply Rle_trans with (kp_interval kp * rate); [nra|exact B1]. }
  destruct PC as (tips & PC).
  assert (AF : after fuel hist s) by (destruct AS as (ma & rsa & Ra & Pa & _); exists ma, rsa; auto).
  assert (RT : exists r, answers fuel hist [CPredict rs] = Ret r).
  { pose proof (oriented_nodiv fuel (hist ++ [CPredict rs]) HF) as ND. rewrite run_app, R0 in ND. cbn [obind run step] in ND.
    unfold answers. rewrite R0. cbn [obind run step].
    assert (NU : noub (predict fuel m rs)).
    { unfold predict. rewrite MQ, EK, ML. cbn [pred_construct]. rewrite PC. cbn [obind].
      apply noub_bind; [apply model_stylus_noub|]. intros [lm out] _. discriminate. }
    destruct (predict fuel m rs) as [[[m2 s2] out]|u|]; cbn [obind] in *.
    - eauto.
    - exfalso. eapply NU. reflexivity.
    - exfalso. apply ND; [|reflexivity]. apply Forall_app. split; [exact OR|repeat constructor]. }
  destruct RT as (r & RT). destruct (C13_predict_succeeds fuel hist s p rs AF P ON IS) as [H _].
  destruct (H _ RT) as (out & ->). eauto.
Qed.
