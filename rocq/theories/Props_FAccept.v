(** * C51 in floating point: ordinary input is accepted. *)
From Coq Require Import ZArith Bool List Sorted Reals Lra Lia Psatz.
From Flocq Require Import Core.Core IEEE754.BinarySingleNaN.
From Verif Require Export Props_Whole Props_Range Props_Finite.
Import ListNotations.
Open Scope R_scope.

(** ** What is assumed *)
(** acosf of a number in [-1, 1] is finite and between 0 and 4. *)
Definition acosf_sane (acosf : float32 -> float32) : Prop := forall x : float32,
  Bleb (b32 (-1) 0) x = true -> Bleb x (b32 1 0) = true ->
  is_finite (acosf x) = true /\ 0 <= B2R (acosf x) <= 4.

(** The calls are such that none has undefined behaviour (C45) and all return (C46). *)
Record calls_safe {acosf : float32 -> float32} (hist : list (call (A := ieee acosf))) : Prop := mkCalls {
  cs_length : (Z.of_nat (List.length hist) <= INT_MAX)%Z;
  cs_outputs : Forall (fun c => match c with CReset p => (sp_max_outputs (p_sampling p) < INT_MAX)%Z | _ => True end) hist;
  cs_kalman : no_kalman_prediction hist;
  cs_orient : Forall (call_ok (orientation_acceptable acosf)) hist
}.

(** From [a] to [b] there is room for at most [k] results: the time between them times
    the output rate is less than [k] by a relative margin of 2^-22. *)
Definition within_steps {acosf : float32 -> float32} (p : StrokeModelParams (A := ieee acosf)) (k : Z) (a b : Input (A := ieee acosf)) : Prop :=
  (B2R (i_time b : float64) - B2R (i_time a : float64)) * B2R (sp_rate (p_sampling p) : float64) * (1 + / 4194304) <= IZR k.
(** The limit on the angle between results is off, or [k] results are enough for a U-turn. *)
Definition turns_within {acosf : float32 -> float32} (p : StrokeModelParams (A := ieee acosf)) (k : Z) : Prop :=
  deqb (sp_max_angle (p_sampling p)) (dofZ (-1)) = true \/ 4 <= IZR k * B2R (sp_max_angle (p_sampling p) : float64).

(** ** Proof *)
Lemma sane_sound : forall acosf, acosf_sane acosf -> acosf_sound acosf.
Proof. intros acosf H x L1 L2. destruct (H x L1 L2) as [F B]. apply (leb_R 24 128); [reflexivity|exact F|]. cbn. lra. Qed.

Section Accept.
Variable acosf : float32 -> float32.
#[local] Instance AF : Arith := ieee acosf.

Lemma safe_run : forall fuel (hist : list call), (1 <= fuel)%nat -> acosf_sound acosf -> @calls_safe acosf hist ->
  exists m rs, run fuel modeler0 hist = Ret (m, rs).
Proof.
  intros [|fuel] hist HF HA [HL HO HK HR]; [lia|].
  assert (ND : nodiv (run (S fuel) modeler0 hist)).
  { eapply (run_nodiv (S fuel) _ _ (ST_step acosf)); [|exact good0|exact cons0| |exact HR].
    - intros tips sm lm pt. apply model_stylus_stop.
    - split; [constructor|discriminate]. }
  assert (NU : noub (run (S fuel) modeler0 hist)).
  { destruct HK as [HK|HK].
    - apply (run_noub (S fuel) true (steps_noub acosf HA) (timeout_noub acosf) hist 0); [apply safe0| |lia].
      rewrite Forall_forall in *. intros c IC. specialize (HO c IC). specialize (HK c IC). destruct c; cbn; auto.
    - apply (run_noub (S fuel) false (steps_noub acosf HA) (timeout_noub acosf) hist 0); [apply safe0| |lia].
      unfold no_call in HK. rewrite forallb_forall in HK. rewrite Forall_forall in *. intros c IC.
      specialize (HO c IC). specialize (HK c IC). destruct c; cbn in *; auto; try discriminate. split; [exact HO|discriminate]. }
  destruct (run (S fuel) modeler0 hist) as [[m rs]|k|]; [eauto|exfalso; eapply NU; reflexivity|exfalso; apply ND; reflexivity].
Qed.

(** min(ceil(x), INT_MAX) for a finite [x] between 0 and [k]. *)
Lemma ceil_min : forall (x : float64) k, is_finite x = true -> 0 <= B2R x <= IZR k -> (k <= 1048576)%Z ->
  exists n, dtoint (std_dmin (dceil x) (dofZ INT_MAX)) = Some n /\ (n <= k)%Z.
Proof.
  intros x k F [L U] K. destruct (ceil_fin 53 1024 _ x F) as [C1 C2].
  assert (ZC : (0 <= Zceil (B2R x) <= k)%Z).
  { split; [apply Zceil_glb in U; apply le_IZR; eapply Rle_trans; [exact L|apply Zceil_ub]|apply Zceil_glb; exact U]. }
  destruct (ofZ_64 INT_MAX) as [I1 I2]; [reflexivity|].
  unfold AF, std_dmin. cbn [dltb dofZ dceil dtoint ieee]. set (M := binary_normalize 53 1024 _ _ mode_NE INT_MAX 0 false) in *.
  assert (Q : Bltb M (Bnearbyint mode_UP x) = false).
  { apply (ltb_false_R 53 1024); [exact I1|exact C1|]. rewrite C2, I2. apply IZR_le. unfold INT_MAX. lia. }
  rewrite Q. exists (Zceil (B2R x)). split; [|lia].
  rewrite to_int_fits; [rewrite C2, Ztrunc_IZR; reflexivity|exact _|exact C1|]. rewrite C2. split; apply IZR_le; unfold INT_MAX, INT_MIN; lia.
Qed.

Lemma angle_some : forall u v : Vec2, is_finite (vx u : float32) = true -> is_finite (vy u : float32) = true ->
  is_finite (vx v : float32) = true -> is_finite (vy v : float32) = true -> exists a, absolute_angle_to u v = Some a.
Proof.
  intros u v F1 F2 F3 F4. assert (Q : forall x : float32, is_finite x = true -> fisfinite x = true) by (intros []; try discriminate; reflexivity).
  unfold absolute_angle_to, vfinite. rewrite !Q by assumption. cbn [negb andb orb]. destruct (_ || _); eauto.
Qed.

Lemma end_velocity : forall (v x t s fd : float32), fin_le (IZR (2 ^ 76)) v -> fin_le (bpow radix2 30) x -> fin_le (IZR (2 ^ 76)) t ->
  / 1048576 <= Rabs (B2R s) -> is_finite fd = true -> Rabs (B2R fd) <= bpow radix2 21 ->
  is_finite (Bplus mode_NE v (Bmult mode_NE fd (Bdiv mode_NE (Bminus mode_NE x t) s))) = true.
Proof.
  intros v x t s fd V X T S FF BF. change (IZR (2 ^ 76)) with (bpow radix2 76) in *.
  destruct (quot_le x t s 76 ltac:(lia) (fin_le_pow 30 76 x ltac:(lia) X) T S) as [FQ BQ]. destruct V as [FV BV].
  set (q := Bdiv mode_NE _ s) in *. change (76 + 21)%Z with 97%Z in BQ.
  assert (BP : Rabs (B2R fd * B2R q) <= bpow radix2 118).
  { rewrite Rabs_mult. change 118%Z with (21 + 97)%Z. rewrite bpow_plus. apply Rmult_le_compat; try apply Rabs_pos; assumption. }
  assert (FM : forall e, (0 <= e <= 120)%Z -> fmt 24 128 (bpow radix2 e)).
  { intros e E. apply generic_format_bpow. unfold SpecFloat.fexp, SpecFloat.emin. lia. }
  assert (SM : forall e z, (0 <= e <= 120)%Z -> Rabs z <= bpow radix2 e -> small32 z).
  { intros e z E Z. eapply small_fmt_bound; [reflexivity|apply (FM e E)|apply bpow_lt; lia|exact Z]. }
  destruct (mult_fin 24 128 _ _ fd q FF FQ (SM 118%Z _ ltac:(lia) BP)) as [F1 E1].
  assert (B1 : Rabs (B2R (Bmult mode_NE fd q)) <= bpow radix2 118).
  { rewrite E1. apply rnd_abs_le; [reflexivity|apply FM; lia|exact BP]. }
  destruct (plus_fin 24 128 _ _ v _ FV F1) as [F2 _]; [|exact F2]. apply (SM 119%Z); [lia|].
  eapply Rle_trans; [apply Rabs_triang|]. change 119%Z with (1 + 118)%Z. rewrite bpow_plus. change (bpow radix2 1) with 2.
  assert (bpow radix2 76 <= bpow radix2 118) by (apply bpow_le; lia). lra.
Qed.

(** The tip's position and velocity are at most 2^76. *)
Definition tame (tip : TipState) : Prop := vec_le acosf (IZR (2 ^ 76)) (t_pos tip) /\ vec_le acosf (IZR (2 ^ 76)) (t_vel tip).
Lemma steps_ok : forall (p : StrokeModelParams) tip (a b : Input) k, validate_params p = OkStatus -> @steady_params acosf p ->
  @moderate_input acosf a -> @moderate_input acosf b -> dltb (i_time b) (i_time a) = false -> @tick_gap acosf a b ->
  tame tip ->
  @within_steps acosf p k a b -> @turns_within acosf p k -> acosf_sane acosf ->
  (k <= sp_max_outputs (p_sampling p))%Z ->
  exists n, number_of_steps tip a b (p_sampling p) (p_position p) = Ret (IOk n) /\ (n <= k)%Z.
Proof.
  intros p tip a b k V SP MA MB DL [(g & FG & EG) TA] LV WS TW SA KM.
  destruct SP as (SD & MO & _). destruct MA as (_ & [FA LA] & _). destruct MB as ([PX PY] & [FB LB] & _).
  pose proof (sd_rate _ _ SD) as RT.
  assert (FR : is_finite (sp_rate (p_sampling p) : float64) = true).
  { destruct (validate_params_parts p V) as (_ & _ & VS & _). unfold validate_sampling in VS. apply and_then_ok in VS. destruct VS as [VR _]. apply gt0_d_F in VR. apply VR. }
  destruct LV as ((TX & TY) & (VX & VY)).
  assert (FS : / 1048576 <= Rabs (B2R (pp_spring (p_position p) : float32))).
  { destruct (sd_spring _ _ SD) as [_ S]. rewrite Rabs_pos_eq; lra. }
  assert (MAF : deqb (sp_max_angle (p_sampling p)) (dofZ (-1)) = false -> is_finite (sp_max_angle (p_sampling p) : float64) = true /\ 0 < B2R (sp_max_angle (p_sampling p) : float64)).
  { intros NE. destruct (validate_params_parts p V) as (_ & _ & VS & _). unfold validate_sampling in VS.
    apply and_then_ok in VS. destruct VS as [_ VS]. apply and_then_ok in VS. destruct VS as [_ VS]. apply and_then_ok in VS. destruct VS as [_ VS].
    destruct (Z.ltb _ _); [discriminate VS|]. apply and_then_ok in VS. destruct VS as [_ VS]. rewrite NE in VS. cbn [negb] in VS.
    apply and_then_ok in VS. destruct VS as [VS _]. apply gt0_d_F in VS. exact VS. }
  unfold within_steps, turns_within, tick_apart in *. unfold number_of_steps. clear V SD.
  unfold AF in *. set (ta := i_time a) in *. set (tb := i_time b) in *. set (rt := sp_rate (p_sampling p)) in *.
  change (is_finite (ta : float64) = true) in FA. change (is_finite (tb : float64) = true) in FB. change (is_finite (rt : float64) = true) in FR.
  unfold AF in DL. cbn [dltb ieee] in DL. apply (ltb_false_R 53 1024) in DL; [|assumption|assumption].
  pose proof eta_pos as T0. pose proof eta_small as T1.
  assert (D0 : 0 <= B2R (tb : float64) - B2R (ta : float64) <= 4294967296) by (apply Rabs_le_inv in LA, LB; lra).
  destruct (minus_fin 53 1024 _ _ tb ta FB FA) as [M1 M2]; [apply small_bound with (x := g); [reflexivity|]; rewrite EG; apply Rle_refl|].
  rewrite <- EG in M2, D0, WS, TA. rewrite rnd_id in M2 by apply fmt_B2R. set (d := B2R g) in *.
  destruct (d2f_fin _ M1) as [M3 M4].
  { apply small_le32. rewrite M2, Rabs_pos_eq by lra. apply Rle_trans with 4294967296; [lra|apply IZR_le; lia]. }
  rewrite M2 in M4. destruct (f2d_fin _ M3) as [M5 M6]. rewrite M4 in M6.
  pose proof (r32_error d) as E1. rewrite (Rabs_pos_eq d) in E1 by lra. apply Rabs_le_inv in E1.
  assert (P1 : 0 <= r32 d) by (apply rnd_ge0; [reflexivity|lra]). unfold u24 in E1.
  assert (P2 : r32 d <= d * (1 + / 4194304)).
  { destruct TA as [TA|TA].
    - assert (d = 0) by (unfold d in *; rewrite EG; lra). rewrite H. rewrite rnd_0. lra.
    - rewrite Rabs_pos_eq in TA by lra. lra. }
  assert (K1 : 0 <= IZR k <= 1048576).
  { split; [|apply IZR_le; lia]. eapply Rle_trans; [|exact WS]. apply Rmult_le_pos; [apply Rmult_le_pos; lra|lra]. }
  assert (P3 : 0 <= r32 d * B2R (rt : float64) <= IZR k).
  { split; [apply Rmult_le_pos; lra|]. eapply Rle_trans; [|exact WS]. rewrite Rmult_assoc, (Rmult_comm (B2R rt)), <- Rmult_assoc. apply Rmult_le_compat_r; lra. }
  assert (P4 : r32 d <= 1048576).
  { apply Rle_trans with (r32 d * B2R (rt : float64)); [rewrite <- (Rmult_1_r (r32 d)) at 1; apply Rmult_le_compat_l; lra|lra]. }
  destruct (mult_fin 53 1024 _ _ _ rt M5 FR) as [M7 M8].
  { apply small_le64. rewrite M6, Rabs_pos_eq by lra. apply Rle_trans with 1048576; [lra|apply IZR_le; lia]. }
  rewrite M6 in M8.
  assert (FK : fmt 53 1024 (IZR k)) by (destruct K1 as [K1 K1b]; apply le_IZR in K1; apply fmt_IZR; lia).
  set (ma := sp_max_angle (p_sampling p)) in *.
  assert (OFF : deqb ma (dofZ (-1)) = true -> dltb d0 ma = false).
  { intros NE. unfold AF in *. cbn [deqb dofZ ieee] in NE. destruct (dltb d0 ma) eqn:MQ; [|reflexivity]. exfalso. cbn [dltb ieee] in MQ. rewrite d0_eq in MQ.
    destruct (ofZ_64 (-1)) as [O1 O2]; [reflexivity|]. set (o := binary_normalize 53 1024 _ _ mode_NE (-1) 0 false) in *.
    clearbody ma. clear MAF TW. destruct ma as [s|s| |s m e H].
    - destruct s; discriminate MQ.
    - destruct s; [discriminate MQ|]. vm_compute in NE. discriminate NE.
    - discriminate MQ.
    - apply (eqb_R 53 1024) in NE; [|reflexivity|exact O1]. apply (ltb_R 53 1024 (B754_zero false)) in MQ; [|reflexivity|reflexivity].
      rewrite NE, O2 in MQ. cbn in MQ. lra. }
  destruct (ceil_min (dmul (f2d (d2f (dsub tb ta))) rt) k) as (n & N1 & N2).
  { exact M7. }
  { unfold AF. cbn [dmul f2d d2f dsub ieee]. rewrite M8. split; [apply rnd_ge0; [reflexivity|lra]|apply rnd_le_fmt; [reflexivity|exact FK|lra]]. }
  { lia. }
  unfold AF in *. rewrite N1. cbn [to_int]. clear N1.
  assert (B21 : Rabs (B2R (b64_to_b32 (Bminus mode_NE tb ta))) <= bpow radix2 21) by (rewrite M4, Rabs_pos_eq by lra; change (bpow radix2 21) with 2097152; lra).
  destruct (angle_some (t_vel tip) (vadd (t_vel tip) (vscale (d2f (dsub tb ta)) (vdiv (vsub (i_pos b) (t_pos tip)) (pp_spring (p_position p)))))) as (ang & AN).
  { apply VX. }
  { apply VY. }
  { exact (end_velocity _ _ _ _ _ VX PX TX FS M3 B21). }
  { exact (end_velocity _ _ _ _ _ VY PY TY FS M3 B21). }
  unfold AF in *. rewrite AN.
  destruct (dltb d0 ma) eqn:MQ.
  - destruct (deqb ma (dofZ (-1))) eqn:DQ; [specialize (OFF eq_refl); discriminate OFF|]. destruct (MAF eq_refl) as [G1 G2]. clear OFF MAF.
    destruct TW as [TW|TW]; [discriminate TW|].
    assert (AG : is_finite (ang : float32) = true /\ 0 <= B2R (ang : float32) <= 4).
    { destruct (angle_value acosf _ _ _ AN) as [->|(x & X1 & X2 & ->)]; [cbn; split; [reflexivity|lra]|]. exact (SA x X1 X2). }
    destruct AG as [AG1 AG2]. destruct (f2d_fin ang AG1) as [H1 H2].
    assert (Q0 : 0 <= B2R (ang : float32) / B2R (ma : float64) <= IZR k).
    { split; [apply Rmult_le_pos; [lra|left; apply Rinv_0_lt_compat; exact G2]|]. apply Rmult_le_reg_r with (B2R (ma : float64)); [exact G2|].
      unfold Rdiv. rewrite Rmult_assoc, Rinv_l, Rmult_1_r by lra. lra. }
    destruct (div_fin 53 1024 _ _ (b32_to_b64 ang) ma H1) as [H3 H4]; [lra|rewrite H2; apply small_le64; rewrite Rabs_pos_eq by lra; apply Rle_trans with 1048576; [lra|apply IZR_le; lia]|].
    rewrite H2 in H4.
    destruct (ceil_min (ddiv (f2d ang) ma) k) as (n2 & N3 & N4).
    { exact H3. }
    { unfold AF. cbn [ddiv f2d ieee]. rewrite H4. split; [apply rnd_ge0; [reflexivity|lra]|apply rnd_le_fmt; [reflexivity|exact FK|lra]]. }
    { lia. }
    unfold AF in *. rewrite N3. cbn [to_int]. assert (NM : ((if (n <? n2)%Z then n2 else n) <= k)%Z) by (destruct (n <? n2)%Z; assumption).
    exists (if (n <? n2)%Z then n2 else n). rewrite (proj2 (Z.ltb_ge _ _)) by lia. split; [reflexivity|exact NM].
  - exists n. rewrite (proj2 (Z.ltb_ge _ _)) by lia. split; [reflexivity|exact N2].
Qed.

Lemma moderate_valid : forall i : Input, @moderate_input acosf i -> i_event i = EDown \/ i_event i = EMove \/ i_event i = EUp -> validate_input i = OkStatus.
Proof.
  intros i MO EV. destruct MO as ((P1 & P2) & [F3 _] & _). destruct P1 as [F1 _]. destruct P2 as [F2 _]. unfold validate_input, validate_finite_f, validate_finite_d.
  assert (Q : forall x : float32, is_finite x = true -> fisnan x = false /\ fisinf x = false) by (intros []; try discriminate; split; reflexivity).
  assert (Q2 : forall x : float64, is_finite x = true -> disnan x = false /\ disinf x = false) by (intros []; try discriminate; split; reflexivity).
  destruct (Q _ F1) as [A1 A2]. destruct (Q _ F2) as [B1 B2]. destruct (Q2 _ F3) as [C1 C2].
  unfold AF in *. rewrite A1, A2, B1, B2, C1, C2. destruct EV as [->|[-> | ->]]; reflexivity.
Qed.

Lemma safe_call : forall fuel hist s c, (1 <= fuel)%nat -> acosf_sound acosf -> @calls_safe acosf (hist ++ [c]) -> after fuel hist s ->
  exists m r0 m' r, run fuel modeler0 hist = Ret (m, r0) /\ tracks s m /\ good m /\ cons m /\
    step fuel m c = Ret (m', r) /\ answers fuel hist [c] = Ret [r].
Proof.
  intros fuel hist s c HF HA T AF1. destruct (after_full fuel hist s AF1) as (m & r0 & R & TR & G & C).
  destruct (safe_run fuel _ HF HA T) as (m' & rs & R'). rewrite run_app, R in R'. cbn [obind run] in R'.
  destruct (step fuel m c) as [[m1 r]| |] eqn:S; cbn [obind] in R'; try discriminate R'.
  exists m, r0, m1, r. do 5 (split; [assumption || reflexivity|]). unfold answers. rewrite R. cbn [obind run]. rewrite S. reflexivity.
Qed.

Lemma next_tame : forall fuel hist s p i0 i rs k, (1 <= fuel)%nat -> acosf_sane acosf -> @calls_safe acosf (hist ++ [CUpdate i rs]) ->
  after fuel hist s -> ps_params s = Some p -> ps_last s = Some i0 -> @steady_params acosf p ->
  (forall m rs, run fuel modeler0 hist = Ret (m, rs) -> tame (pm_state (m_pos m))) -> @moderate_input acosf i0 ->
  @moderate_input acosf i -> (i_event i = EMove \/ i_event i = EUp) -> input_eqb i0 i = false ->
  B2R (i_time i0 : float64) <= B2R (i_time i : float64) -> @tick_gap acosf i0 i ->
  @within_steps acosf p k i0 i -> @turns_within acosf p k -> (k <= sp_max_outputs (p_sampling p))%Z ->
  exists out, answers fuel hist [CUpdate i rs] = Ret [RResults OkStatus (rs ++ out)] /\
    (i_event i = EMove -> (Z.of_nat (List.length out) <= k)%Z).
Proof.
  intros fuel hist s p i0 i rs k HF SA T AF1 P L SP TM FL MO EV NE TI TG WS TW KM.
  destruct (safe_call _ _ _ _ HF (sane_sound _ SA) T AF1) as (m & r0 & m' & r & R & TR & G & C & S & AN).
  unfold AF in *. pose proof (TM m r0 R) as FT.
  destruct TR as (T1 & T2 & _). rewrite P in T1. rewrite L in T2. symmetry in T1.
  destruct (m_last m) as [lst|] eqn:ML; [|discriminate T2]. injection T2 as E0.
  pose proof (g_valid _ G p T1) as VP.
  assert (V : validate_input i = OkStatus) by (apply moderate_valid; [exact MO|tauto]).
  assert (DL : dltb (i_time i) (i_time i0) = false) by (apply (ltb_false_R 53 1024); [apply MO|apply FL|exact TI]).
  destruct (steps_ok p (pm_state (m_pos m)) i0 i k VP SP FL MO DL TG FT WS TW SA KM) as (n & NS & NK).
  cbn [step] in S. destruct (update fuel m i rs) as [[[m1 st] rs1]| |] eqn:U; cbn [obind] in S; try discriminate S.
  injection S as <- <-. rewrite AN. pose proof U as U0. apply update_inv in U0. destruct U0 as (out & -> & UI). exists out.
  assert (OKS : st = OkStatus).
  { unfold update in U. unfold AF in *. rewrite T1, V, ML in U. rewrite <- E0 in U. rewrite NE, DL in U.
    destruct EV as [EV|EV]; rewrite EV in U.
    - unfold process_move in U. rewrite ML in U. bind_inv U. destruct x as [w c]. bind_inv U. rewrite <- E0 in U. rewrite NS in U. cbn [obind] in U.
      bind_inv U. destruct x0 as [tip tips]. bind_inv U. bind_inv U. destruct x1 as [lm o]. apply ret_inj in U. injection U as _ <- _. reflexivity.
    - unfold process_up in U. rewrite ML in U. rewrite <- E0 in U. rewrite NS in U. cbn [obind] in U.
      bind_inv U. destruct x as [tip tips]. destruct (model_end_of_stroke _ _ _ _ _ _) as [tip2 tips2].
      bind_inv U. bind_inv U. destruct x0 as [lm o]. apply ret_inj in U. injection U as _ <- _. reflexivity. }
  subst st. split; [reflexivity|]. intros EM.
  assert (K0 : (0 <= k)%Z).
  { apply le_IZR. eapply Rle_trans; [|exact WS]. destruct SP as [SD _]. pose proof (sd_rate _ _ SD). apply Rmult_le_pos; [apply Rmult_le_pos; lra|lra]. }
  destruct (upd_move _ _ _ _ _ UI EM) as (p1 & last & w & c & sm & n1 & tip & tips & pred & lm & MP & _ & ML1 & _ & _ & _ & NS1 & UP & _ & MS & _).
  assert (p1 = p) by congruence. subst p1. assert (last = lst) by congruence. subst last. rewrite <- E0 in NS1.
  assert (Q : Ret (IOk n1) = Ret (IOk n)) by (etransitivity; [symmetry; exact NS1|exact NS]). apply ret_inj in Q. injection Q as ->.
  apply update_along_path_length in UP. apply model_stylus_length in MS. unfold AF in *. rewrite MS, UP. lia.
Qed.

Lemma next_ok : forall fuel hist s p i0 i rs es seen k, (1 <= fuel)%nat -> acosf_sane acosf -> @calls_safe acosf (hist ++ [CUpdate i rs]) ->
  after_seen fuel hist s es seen -> ps_params s = Some p -> ps_last s = Some i0 ->
  @steady_params acosf p -> @moderate_inputs acosf p (map fst es) seen -> (count acosf es <= Z.to_nat 1048576)%nat ->
  @moderate_input acosf i -> (i_event i = EMove \/ i_event i = EUp) -> input_eqb i0 i = false ->
  B2R (i_time i0 : float64) <= B2R (i_time i : float64) -> @tick_gap acosf i0 i ->
  @within_steps acosf p k i0 i -> @turns_within acosf p k -> (k <= sp_max_outputs (p_sampling p))%Z ->
  exists out, answers fuel hist [CUpdate i rs] = Ret [RResults OkStatus (rs ++ out)] /\
    (i_event i = EMove -> (Z.of_nat (List.length out) <= k)%Z).
Proof.
  intros fuel hist s p i0 i rs es seen k HF SA T AS P L SP MI CT MO EV NE TI TG WS TW KM.
  destruct (finv_state acosf fuel hist s es seen AS) as (m0 & rs0 & R0 & TR & _ & _ & J).
  destruct TR as (T1 & T2 & _). unfold AF in *. pose proof (eq_trans (eq_sym T1) P) as MP. pose proof (eq_trans (eq_sym T2) L) as ML.
  destruct (m_last m0) as [lst|] eqn:EL; [|discriminate ML]. apply some_inj in ML.
  specialize (J p lst MP eq_refl). destruct J as (_ & _ & J). specialize (J (conj SP (conj MI CT))).
  destruct J as [[FT _] _ _ _ _ [_ FL] _ _ _]. cbn [core_of co_tip co_last] in FT, FL. rewrite ML in FL.
  apply (next_tame fuel hist s p i0 i rs k); try assumption.
  - destruct AS as (ma & rsa & Ra & Pa & _); exists ma, rsa; auto.
  - intros m rs1 R1. unfold AF in *. rewrite R0 in R1. apply ret_inj in R1. apply (f_equal fst) in R1. cbn [fst] in R1. subst m.
    destruct (lively_bounds acosf _ _ _ (unit_range acosf _ _ (proj1 SP)) (Nat.le_trans _ _ _ CT (proj1 bufsize)) FT) as (TP & TV & _). split; assumption.
Qed.

Lemma down_ok : forall fuel hist s p i rs, (1 <= fuel)%nat -> acosf_sound acosf -> @calls_safe acosf (hist ++ [CUpdate i rs]) ->
  after fuel hist s -> ps_params s = Some p -> ps_last s = None -> @moderate_input acosf i -> i_event i = EDown ->
  answers fuel hist [CUpdate i rs] = Ret [RResults OkStatus (rs ++ [echo i])].
Proof.
  intros fuel hist s p i rs HF HA T AF1 P L MO EV.
  destruct (safe_call _ _ _ _ HF HA T AF1) as (m & r0 & m' & r & R & TR & G & C & S & AN).
  destruct TR as (T1 & T2 & _). rewrite P in T1. rewrite L in T2. symmetry in T1.
  destruct (m_last m) as [lst|] eqn:ML; [discriminate T2|].
  cbn [step] in S. destruct (update fuel m i rs) as [[[m1 st] rs1]| |] eqn:U; cbn [obind] in S; try discriminate S.
  injection S as <- <-. rewrite AN.
  assert (V : validate_input i = OkStatus) by (apply moderate_valid; [exact MO|tauto]).
  unfold update in U. unfold AF in *. rewrite T1, V, ML, EV in U. unfold process_down in U. rewrite ML in U.
  bind_inv U. bind_inv U. apply ret_inj in U. injection U as _ <- <-. reflexivity.
Qed.
End Accept.

(** ** C51 *)
(** In a stroke of moderate inputs, the next Move or Up is accepted if it differs from
    the last input, is not earlier, and needs no more results than allowed.  A Move then
    gives at most that many results. *)
Theorem C51_float_next_input_accepted : forall acosf (A := ieee acosf) fuel hist s (p : StrokeModelParams (A := ieee acosf))
    es (seen : list (Input (A := ieee acosf))) (i0 i : Input (A := ieee acosf)) rs k,
  (1 <= fuel)%nat -> acosf_sane acosf -> calls_safe (hist ++ [CUpdate i rs]) ->
  after_seen fuel hist s es seen -> ps_params s = Some p -> ps_last s = Some i0 ->
  steady_params p -> moderate_inputs p (map fst es) seen ->
  (List.length (List.concat (map snd es)) <= Z.to_nat 1048576)%nat ->
  moderate_input i -> (i_event i = EMove \/ i_event i = EUp) -> input_eqb i0 i = false ->
  B2R (i_time i0 : float64) <= B2R (i_time i : float64) -> tick_gap i0 i ->
  within_steps p k i0 i -> turns_within p k -> (k <= sp_max_outputs (p_sampling p))%Z ->
  exists out, answers fuel hist [CUpdate i rs] = Ret [RResults OkStatus (rs ++ out)] /\
    (i_event i = EMove -> (Z.of_nat (List.length out) <= k)%Z).
Proof.
  intros acosf A fuel hist s p es seen i0 i rs k HF SA T AS P L SP MI CT MO EV NE TI TG WS TW KM. subst A.
  exact (next_ok acosf fuel hist s p i0 i rs es seen k HF SA T AS P L SP MI CT MO EV NE TI TG WS TW KM).
Qed.

Theorem C51_float_down_accepted : forall acosf (A := ieee acosf) fuel hist s (p : StrokeModelParams (A := ieee acosf)) (i : Input (A := ieee acosf)) rs,
  (1 <= fuel)%nat -> acosf_sound acosf -> calls_safe (hist ++ [CUpdate i rs]) ->
  after fuel hist s -> ps_params s = Some p -> ps_last s = None -> moderate_input i -> i_event i = EDown ->
  answers fuel hist [CUpdate i rs] = Ret [RResults OkStatus (rs ++ [echo i])].
Proof. intros acosf A fuel hist s p i rs HF HA T AF1 P L MO EV. subst A. exact (down_ok acosf fuel hist s p i rs HF HA T AF1 P L MO EV). Qed.

(** Consecutive inputs differ, are in order and need at most [k] results. *)
Fixpoint paced_f {acosf : float32 -> float32} (p : StrokeModelParams (A := ieee acosf)) (k : Z) (i : Input (A := ieee acosf)) (l : list (Input (A := ieee acosf))) : Prop :=
  match l with
  | [] => True
  | j :: l' => input_eqb i j = false /\ B2R (i_time i : float64) <= B2R (i_time j : float64) /\ within_steps p k i j /\ paced_f p k j l'
  end.

(** A whole stroke: Reset, Down and Moves that give at most 2^20 results in all. *)
Theorem C51_float_whole_stroke_accepted : forall acosf (A := ieee acosf) fuel (p : StrokeModelParams (A := ieee acosf)) (d : Input (A := ieee acosf)) ms k,
  (1 <= fuel)%nat -> acosf_sane acosf -> validate_params p = OkStatus -> steady_params p ->
  i_event d = EDown -> Forall (fun i => i_event i = EMove) ms ->
  moderate_inputs p (d :: ms) (d :: ms) -> Forall (orientation_acceptable acosf) (d :: ms) ->
  paced_f p k d ms -> turns_within p k -> (k <= sp_max_outputs (p_sampling p))%Z ->
  (Z.of_nat (List.length ms) * Z.max 1 k < 1048576)%Z ->
  exists s es, after_seen fuel (drawing p (d :: ms)) s es (d :: ms) /\ map fst es = d :: ms /\
    ps_params s = Some p /\ ps_last s = Some (last ms d) /\ Forall all_finite (List.concat (map snd es)).
Proof.
  intros acosf A fuel p d ms k HF SA V SP ED. subst A.
  intros EM MI OR PW TW KM LN.
  enough (K : exists s es, after_seen fuel (drawing p (d :: ms)) s es (d :: ms) /\ map fst es = d :: ms /\
      ps_params s = Some p /\ ps_last s = Some (last ms d) /\ (Z.of_nat (List.length (List.concat (map snd es))) <= 1 + Z.of_nat (List.length ms) * Z.max 1 k)%Z).
  { destruct K as (s & es & AS & ME & PP & PL & CT). exists s, es. do 4 (split; [assumption|]).
    eapply (C49_float_finite_results acosf fuel _ s p es (d :: ms) AS); [unfold in_stroke; rewrite PL; reflexivity|exact PP|exact SP|rewrite ME; exact MI|apply Nat2Z.inj_le; lia]. }
  assert (SAFE : forall is : list (Input (A := ieee acosf)), Forall (orientation_acceptable acosf) is -> (Z.of_nat (List.length is) <= 1048576)%Z -> calls_safe (drawing p is)).
  { intros is OI LI. constructor.
    - unfold drawing. cbn [List.length]. rewrite map_length. unfold INT_MAX. lia.
    - constructor; [destruct SP as (_ & MO & _); unfold INT_MAX; lia|]. apply Forall_map. apply Forall_forall. intros; exact Logic.I.
    - right. unfold no_call. cbn. apply forallb_forall. intros c IN. apply in_map_iff in IN. destruct IN as (i & <- & _). reflexivity.
    - constructor; [exact Logic.I|]. apply Forall_map. exact OI. }
  revert EM MI OR PW LN. induction ms as [|i ms IH] using rev_ind; intros EM MI OR PW LN.
  - assert (R0 : answers fuel [] [CReset p] = Ret [RStatus OkStatus]).
    { unfold answers. cbn [run obind step reset_params]. unfold reset_params. rewrite V. reflexivity. }
    assert (A0 : @after_seen (ieee acosf) fuel [] pstate0 [] []) by (exists modeler0, []; repeat split).
    destruct (one_more _ _ _ _ _ (CReset p) _ A0 ltac:(discriminate) R0) as (si & _ & _ & A1). cbn [sstep pstep si_cur si_seen sinputs0 app] in A1.
    assert (AF1 : after fuel [CReset p] (mkP (Some p) None None)) by (destruct A1 as (m & rs & R & P & _); exists m, rs; auto).
    pose proof (SAFE [d] OR ltac:(cbn; lia)) as T1. destruct MI as (MI & _). apply Forall_inv in MI.
    pose proof (C51_float_down_accepted acosf fuel [CReset p] _ p d [] HF (sane_sound _ SA) T1 AF1 eq_refl eq_refl MI ED) as AD.
    destruct (one_more _ _ _ _ _ (CUpdate d []) _ A1 ltac:(discriminate) AD) as (sj & _ & _ & A2). cbn [sstep pstep] in A2. rewrite ED in A2.
    cbn [si_cur si_seen app] in A2. eexists _, _. split; [exact A2|]. repeat split. cbn. lia.
  - apply Forall_app in EM. destruct EM as [EM EI]. apply Forall_inv in EI.
    destruct (@exists_last _ (d :: ms) ltac:(discriminate)) as (l & a & EL).
    assert (EA : a = last ms d).
    { assert (Q : last (d :: ms) d = last (l ++ [a]) d) by (rewrite EL; reflexivity). rewrite last_last in Q. rewrite <- Q. destruct ms; reflexivity. }
    change (d :: ms ++ [i]) with ((d :: ms) ++ [i]) in MI, OR |- *.
    destruct (inputs_snoc acosf p (d :: ms) (d :: ms) l a i EL MI) as (MI' & TG & MO & _). rewrite EA in TG.
    pose proof OR as OR0. apply Forall_app in OR0. destruct OR0 as [OR' _].
    rewrite app_length in LN. cbn [List.length] in LN.
    assert (LN' : (Z.of_nat (List.length ms) * Z.max 1 k + Z.max 1 k < 1048576)%Z) by (rewrite Nat2Z.inj_add in LN; cbn [Z.of_nat] in LN; lia).
    assert (PW' : paced_f p k d ms /\ input_eqb (last ms d) i = false /\ B2R (i_time (last ms d) : float64) <= B2R (i_time i : float64) /\ within_steps p k (last ms d) i).
    { clear - PW. revert d PW. induction ms as [|j ms IH]; intros d PW; [cbn in *; tauto|].
      cbn [app paced_f] in *. destruct PW as (P1 & P2 & P3 & P4). apply IH in P4. rewrite last_cons. tauto. }
    destruct PW' as (PW' & P1 & P2 & P3).
    destruct (IH EM MI' OR' PW') as (s & es & AS & ME & PP & PL & CT); [lia|].
    assert (ED' : drawing p ((d :: ms) ++ [i]) = drawing p (d :: ms) ++ [CUpdate i []]) by (unfold drawing; rewrite map_app; reflexivity).
    assert (T : calls_safe (drawing p (d :: ms) ++ [CUpdate i []])).
    { rewrite <- ED'. apply SAFE; [exact OR|]. rewrite app_length. cbn [List.length]. nia. }
    assert (CT' : (List.length (List.concat (map snd es)) <= Z.to_nat 1048576)%nat) by (apply Nat2Z.inj_le; rewrite Z2Nat.id by lia; lia).
    assert (MI2 : moderate_inputs p (map fst es) (d :: ms)) by (rewrite ME; exact MI'). clear MI'. rename MI2 into MI'.
    destruct (C51_float_next_input_accepted acosf fuel _ s p es (d :: ms) (last ms d) i [] k HF SA T AS PP PL SP MI' CT' MO (or_introl EI) P1 P2 TG P3 TW KM) as (out & AN & LO).
    specialize (LO EI).
    destruct (one_more_move _ _ _ _ _ _ _ _ AS EI AN) as (s' & AS' & PP' & PL').
    exists s', (es ++ [(i, out)]). rewrite ED', last_last. split; [exact AS'|]. split; [|split; [congruence|split; [exact PL'|]]].
    + etransitivity; [apply map_app|]. cbn [map fst]. apply (f_equal (fun l => l ++ [i])) in ME. exact ME.
    + rewrite map_app, concat_app, !app_length. cbn [map snd List.concat List.length]. rewrite app_nil_r. rewrite !Nat2Z.inj_add. cbn [Z.of_nat]. unfold entry in *. assert (k <= Z.max 1 k)%Z by lia. eapply Z.le_trans; [apply Z.add_le_mono; [exact CT|exact LO]|]. lia.
Qed.
