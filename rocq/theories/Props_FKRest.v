(** * C43 in IEEE arithmetic: the Kalman prediction of a resting pen. *)
From Coq Require Import ZArith Bool List Sorted Reals Lra Lia Psatz.
From Flocq Require Import Core.Core IEEE754.BinarySingleNaN.
From Verif Require Export Props_Valid Props_FRest Props_FKalman.
Import ListNotations.
Open Scope R_scope.
Local Notation pow := (bpow radix2).

(** ** Proof *)
Section Num2.
Variables prec emax : Z.
Context (prec_gt_0_ : Prec_gt_0 prec) (prec_lt_emax_ : Prec_lt_emax prec emax).
Notation bf := (binary_float prec emax).
Lemma num_0mult : forall (v w : bf), num 0 v -> is_finite w = true -> num 0 (Bmult mode_NE v w).
Proof.
  intros v w [F1 E1] F2. destruct (mult_fin prec emax _ _ v w F1 F2) as [F E].
  - rewrite E1, Rmult_0_l. apply small_0; exact _.
  - split; [exact F|]. rewrite E, E1, Rmult_0_l. apply rnd_0.
Qed.
Lemma num_mult1 : forall x (v w : bf), num x v -> num 1 w -> num x (Bmult mode_NE v w).
Proof.
  intros x v w H1 [F2 E2]. pose proof H1 as [F1 E1]. destruct (mult_fin prec emax _ _ v w F1 F2) as [F E].
  - rewrite E1, E2, Rmult_1_r. eapply num_small; [exact _|exact H1].
  - split; [exact F|]. rewrite E, E1, E2, Rmult_1_r. eapply num_rnd. exact H1.
Qed.
End Num2.

Section FKRest.
Variable acosf : float32 -> float32.
Let A := ieee acosf.
Local Existing Instance A.

(** *** The filter *)
Definition state_rest (v : R) (s : Vec4) : Prop :=
  num v (q0 s : float64) /\ num 0 (q1 s : float64) /\ num 0 (q2 s : float64) /\ num 0 (q3 s : float64).
Lemma num_d0 : num 0 (d0 : float64).
Proof. exact (ofZ_64 0 eq_refl). Qed.
Lemma num_d1 : num 1 (d1 : float64).
Proof. exact (ofZ_64 1 eq_refl). Qed.
Lemma sum_first : forall v (a b c d : float64), num v a -> num 0 b -> num 0 c -> num 0 d ->
  num v (Bplus mode_NE (Bplus mode_NE (Bplus mode_NE (Bplus mode_NE (d0 : float64) a) b) c) d).
Proof.
  intros v a b c d HA HB HC HD. apply num_plus0; [ |exact HD]. apply num_plus0; [ |exact HC]. apply num_plus0; [ |exact HB].
  apply num_0plus; [exact num_d0|exact HA].
Qed.
Lemma dot_row : forall v w s (r : Vec4), state_rest v s -> num w (Bmult mode_NE (q0 s : float64) (q0 r)) ->
  is_finite (q1 r : float64) = true -> is_finite (q2 r : float64) = true -> is_finite (q3 r : float64) = true -> num w (dot4 s r : float64).
Proof.
  intros v w s r (S0 & S1 & S2 & S3) N F1 F2 F3. unfold dot4, A. cbn [dadd dmul ieee]. apply sum_first; [exact N| | |]; apply num_0mult; assumption || exact _.
Qed.
Lemma half_fin : is_finite (dhalf : float64) = true /\ is_finite (dsixth : float64) = true.
Proof. split; [apply (const_half acosf)|apply (const_sixth acosf)]. Qed.
Lemma rest_propagate : forall v s, state_rest v s -> state_rest v (mat4_vec kf_transition s).
Proof.
  intros v s S. pose proof num_d0 as [Z0 _]. pose proof num_d1 as [O1 _]. pose proof half_fin as [H2 H6]. pose proof S as ((F0 & E0) & _).
  unfold mat4_vec, kf_transition. cbn [row0 row1 row2 row3]. split; [|split; [|split]]; cbn [q0 q1 q2 q3];
    (eapply dot_row; [exact S| |cbn [q1]; assumption|cbn [q2]; assumption|cbn [q3]; assumption]); cbn [q0];
    first [apply num_mult1; [split; assumption|exact num_d1]|apply num_mult0; [exact F0|exact num_d0]].
Qed.
Lemma rest_correct : forall v s (g : Vec4) (z : float64), state_rest v s -> vec_finite acosf g = true -> num v z ->
  state_rest v (vec4_add s (vec4_scale g (dsub z (dot4 kf_measure s)))).
Proof.
  intros v s g z S G Z. assert (D : num v (dot4 kf_measure s : float64)).
  { destruct S as ((F0 & E0) & (F1 & E1) & (F2 & E2) & (F3 & E3)). unfold dot4, kf_measure, A. cbn [dadd dmul ieee q0 q1 q2 q3].
    apply sum_first; [apply num_1mult; [exact num_d1|split; assumption]| | |]; apply num_mult0; try exact _; try exact (proj1 num_d0); split; assumption. }
  assert (I : num 0 (dsub z (dot4 kf_measure s) : float64)) by (unfold A; cbn [dsub ieee]; eapply num_minus; [exact Z|exact D]).
  set (y := dsub (Arith := A) z (dot4 (A := A) kf_measure s)) in *. clearbody y. change float64 in y. unfold vec_finite in G.
  apply andb_prop in G. destruct G as [G G3]. apply andb_prop in G. destruct G as [G G2]. apply andb_prop in G. destruct G as [G0 G1].
  destruct S as (S0 & S1 & S2 & S3). unfold vec4_add, vec4_scale, vec4_map2, vec4_map. cbn [q0 q1 q2 q3]. unfold A. cbn [dadd dmul ieee].
  repeat (split; [apply num_plus0; [assumption|apply num_mult0; [assumption|exact I]]|]).
  apply num_plus0; [assumption|apply num_mult0; [assumption|exact I]].
Qed.
Definition filter_rest (pn mn : float64) (cert : certificate) (v : R) (f : KFilter) : Prop :=
  filter_small acosf pn mn cert f /\ ((1 <= kf_iter f)%Z -> state_rest v (kf_state f)).
Lemma rest_first : forall step cert v f (z : float64) f', kept_small acosf step cert f -> num v z -> kf_iter f = 0%Z ->
  f' = mkKF (mkVec4 z (q1 (kf_state f)) (q2 (kf_state f)) (q3 (kf_state f))) (kf_cov f) (kf_iter f + 1) -> state_rest v (kf_state f').
Proof.
  intros step cert v f z f' S Z E H. pose proof (ks_fresh _ _ _ _ S E) as K. clear S E. subst f. subst f'. cbn [kf_state kf_reset vec4_zero q0 q1 q2 q3].
  split; [exact Z|]. split; [exact num_d0|]. split; exact num_d0.
Qed.
Lemma rest_next : forall step cert v f (z : float64) f', certified acosf step cert = true -> kept_small acosf step cert f -> num v z -> kf_iter f <> 0%Z ->
  ((1 <= kf_iter f)%Z -> state_rest v (kf_state f)) ->
  kf_state f' = (let p := mat4_vec (A := A) (kf_transition (A := A)) (kf_state f) in vec4_add (A := A) p (vec4_scale (A := A) (output step (kf_cov f)) (dsub (Arith := A) z (dot4 (A := A) (kf_measure (A := A)) p)))) ->
  state_rest v (kf_state f').
Proof.
  intros step cert v f z f' C S Z NE R ES. cbv zeta in ES. assert (I0 : (0 <= kf_iter f)%Z) by exact (ks_iter _ _ _ _ S). assert (P : (1 <= kf_iter f)%Z) by lia.
  pose proof (ks_cov _ _ _ _ S P) as EV. set (n := Z.to_nat (kf_iter f - 1)) in EV. clearbody n.
  pose proof (Filter.all_steps acosf step cert C n) as G. unfold step_good in G. apply andb_prop in G. destruct G as [G _].
  assert (G' : vec_finite acosf (output step (kf_cov f)) = true) by (exact (eq_ind_r (fun c => vec_finite acosf (output step c) = true) G EV)).
  set (g := output step (kf_cov f)) in *. clearbody g. clear - ES R P G' Z. specialize (R P). clear P. set (st := kf_state f) in *. clearbody st. set (st' := kf_state f') in *. clearbody st'. subst st'.
  apply rest_correct; [apply rest_propagate; exact R|exact G'|exact Z].
Qed.
Lemma rest_update : forall pn mn cert v f (z : float64) f', filter_certified acosf pn mn cert = true -> Rabs v <= P30 -> num v z ->
  filter_rest pn mn cert v f -> kf_update pn mn f z = Ret f' -> filter_rest pn mn cert v f' /\ kf_iter f' = (kf_iter f + 1)%Z.
Proof.
  intros pn mn cert v f z f' C B Z [S R] H. pose proof Z as [FZ EZ].
  pose proof (filter_update_small acosf pn mn cert f z f' C S FZ ltac:(rewrite EZ; exact B) H) as S'.
  unfold filter_certified in C. unfold filter_small in S.
  destruct (Z.eq_dec (kf_iter f) 0) as [E|NE].
  - pose proof (update_first (A := ieee acosf) pn mn f z f' H E) as U. split; [split; [exact S'|]|]; [intros _; exact (rest_first _ cert v f z f' S Z E U)|].
    clear - U. rewrite U. reflexivity.
  - destruct (update_next (A := ieee acosf) pn mn f z f' H NE) as (EI & EC & ES). split; [|exact EI]. split; [exact S'|]. intros _.
    exact (rest_next _ cert v f z f' C S Z NE R ES).
Qed.

(** *** The estimate *)
Variables X Y : R.
Notation at_xy := (at_xy acosf).
Definition est_rest (e : KEst) : Prop := at_xy X Y (ke_pos e) /\ at_xy 0 0 (ke_vel e) /\ at_xy 0 0 (ke_acc e) /\ at_xy 0 0 (ke_jerk e).
Lemma num_narrow : forall (x : float32) v (a : float64), num v x -> num v a -> num v (d2f a : float32).
Proof.
  intros x v a H [FA EA]. unfold A. cbn [d2f ieee]. destruct (d2f_fin a FA) as [F E].
  - rewrite EA. exact (num_small 24 128 _ v x H).
  - split; [exact F|]. rewrite E, EA. exact (num_rnd 24 128 v x H).
Qed.
Lemma low_nonzero : forall a (x : float32), pow a <= Rabs (B2R x) -> B2R x <> 0.
Proof. intros a x L E. rewrite E, Rabs_R0 in L. pose proof (bpow_gt_0 radix2 a). lra. Qed.
Lemma vscale_assign_0 : forall (k : float32) w, is_finite k = true -> at_xy 0 0 w -> at_xy 0 0 (vscale_assign w k).
Proof. intros k w F [H3 H4]. unfold A. split; cbn [vscale_assign vx vy fmul ieee]; apply num_0mult; assumption || exact _. Qed.
Lemma estimate_rest : forall (k : KPredictor) e (v : Vec2), kpred_estimate k = Some e -> at_xy X Y v ->
  state_rest X (kf_state (k_x k)) -> state_rest Y (kf_state (k_y k)) ->
  Forall (fun t : float64 => is_finite t = true /\ Rabs (B2R t) <= 2147483648) (k_times k) ->
  (Z.of_nat (List.length (k_times k)) <= 1048576)%Z ->
  IZR (Z.of_nat (List.length (k_times k))) / 2048 <= B2R (last (k_times k) d0 : float64) - B2R (hd d0 (k_times k) : float64) ->
  is_finite (kp_acc_weight (k_params k) : float32) = true -> is_finite (kp_jerk_weight (k_params k) : float32) = true -> est_rest e.
Proof.
  intros k e v H [VX VY] SX SY FT LN SP W1 W2. unfold kpred_estimate in H. destruct (kpred_stable k); [|discriminate H].
  destruct (k_times k) as [|front rest] eqn:T; [discriminate H|]. apply some_inj in H. subst e.
  rewrite (last_default (front :: rest) d0 front) in SP by discriminate. cbn [hd] in SP.
  assert (IL : In (last (front :: rest) front) (front :: rest)).
  { destruct (exists_last (l := front :: rest) ltac:(discriminate)) as (l & z & E). rewrite E, last_last. apply in_or_app. right. left. reflexivity. }
  rewrite Forall_forall in FT. destruct (FT front ltac:(left; reflexivity)) as [F1 B1]. destruct (FT _ IL) as [F2 B2].
  set (bk := last (front :: rest) front) in *.
  assert (N1 : (1 <= Z.of_nat (List.length (front :: rest)) <= 1048576)%Z) by (split; [cbn [List.length]; lia|exact LN]).
  pose proof (spacing_between acosf front bk _ F1 F2 B1 B2 N1 SP) as D.
  match goal with |- est_rest (mkKEst _ (vdiv _ ?d) _ _) => set (dt := d) end. change (between (-11) 32 dt) in D. clearbody dt.
  assert (D2 : between (-22) 64 (fmul dt dt)) by exact (mult_between (-11) 32 (-11) 32 dt dt ltac:(lia) ltac:(lia) D D).
  assert (D3 : between (-33) 96 (fmul (fmul dt dt) dt)) by exact (mult_between (-22) 64 (-11) 32 _ dt ltac:(lia) ltac:(lia) D2 D).
  destruct SX as (X0 & X1 & X2 & X3). destruct SY as (Y0 & Y1 & Y2 & Y3).
  assert (Z : forall a : float64, num 0 a -> num 0 (d2f a : float32)) by (intros a; apply (num_narrow (B754_zero false)); split; reflexivity).
  split; [split; cbn [ke_pos vx vy]; [exact (num_narrow _ _ _ VX X0)|exact (num_narrow _ _ _ VY Y0)]|]. cbn [ke_vel ke_acc ke_jerk].
  split; [apply vdiv_0; [exact (low_nonzero _ _ (between_low _ _ _ D))|split; apply Z; assumption]|].
  split; (apply vscale_assign_0; [assumption|]; apply vdiv_0; [|split; apply Z; assumption]).
  - exact (low_nonzero _ _ (between_low _ _ _ D2)).
  - exact (low_nonzero _ _ (between_low _ _ _ D3)).
Qed.
Lemma cubic_rest : forall e (h : float64), est_rest e -> fin_le (pow 40) (d2f h : float32) -> est_rest (evaluate_cubic e h).
Proof.
  intros e h (P & V & C & J) B. unfold evaluate_cubic. cbv zeta.
  match goal with |- est_rest (mkKEst (vadd (vadd (vadd _ (vscale ?x _)) _) _) _ _ _) => change (fin_le (pow 40) x) in B; set (dt := x) in * end. clearbody dt.
  rename B into D1.
  assert (D2 : fin_le (pow 80) (fmul dt dt)) by exact (mult_pow 40 40 80 dt dt ltac:(lia) ltac:(lia) D1 D1).
  assert (D3 : fin_le (pow 120) (fmul (fmul dt dt) dt)) by exact (mult_pow 80 40 120 (fmul dt dt) dt ltac:(lia) ltac:(lia) D2 D1).
  assert (L2 : B2R (f2 : float32) <> 0) by (apply (low_nonzero 1); apply int_low; lia).
  assert (L6 : B2R (fofZ 6 : float32) <> 0) by (apply (low_nonzero 2); apply int_low; lia).
  destruct D1 as [D1 _]. destruct D2 as [D2 _]. destruct D3 as [D3 _].
  unfold est_rest. cbn [ke_pos ke_vel ke_acc ke_jerk]. split; [|split; [|split; [|exact J]]].
  - apply vadd_0; [|apply vdiv_0; [exact L6|apply vscale_0; assumption]]. apply vadd_0; [|apply vdiv_0; [exact L2|apply vscale_0; assumption]].
    apply vadd_0; [exact P|apply vscale_0; assumption].
  - apply vadd_0; [|apply vdiv_0; [exact L2|apply vscale_0; assumption]]. apply vadd_0; [exact V|apply vscale_0; assumption].
  - apply vadd_0; [exact C|apply vscale_0; assumption].
Qed.

(** *** How far the extension goes: nowhere *)
Definition naught (x : float32) : Prop := is_nan x = true \/ num 0 x.
Lemma naught_0 : naught f0.
Proof. right. exact (f0_fin acosf). Qed.
Lemma naught_mult : forall x y, naught x -> fraction y -> naught (Bmult mode_NE x y).
Proof.
  intros x y [NX|HX] HY; [apply nan_eq in NX; subst x; left; destruct y; reflexivity|].
  destruct HY as [NY|[FY _]]; [apply nan_eq in NY; subst y; left; destruct x; reflexivity|]. right. apply num_0mult; assumption || exact _.
Qed.
Lemma mult_naught : forall x y, fraction x -> naught y -> naught (Bmult mode_NE x y).
Proof.
  intros x y HX [NY|HY]; [apply nan_eq in NY; subst y; left; destruct x; reflexivity|].
  destruct HX as [NX|[FX _]]; [apply nan_eq in NX; subst x; left; destruct y; reflexivity|]. right. apply num_mult0; assumption || exact _.
Qed.
Lemma div_nonpos : forall x y : float32, is_finite x = true -> B2R x <= 0 -> is_finite y = true -> 0 < B2R y ->
  (is_finite (Bdiv mode_NE x y) = true /\ B2R (Bdiv mode_NE x y) <= 0) \/ Bdiv mode_NE x y = B754_infinity true.
Proof.
  intros x y FX LX FY PY. assert (Q : B2R x / B2R y <= 0).
  { unfold Rdiv. pose proof (Rinv_0_lt_compat _ PY). nra. }
  pose proof (Bdiv_correct 24 128 _ _ mode_NE x y ltac:(lra)) as K. destruct (Rlt_bool _ _) eqn:E.
  - destruct K as (K1 & K2 & _). left. split; [rewrite K2; exact FX|]. rewrite K1. apply (rnd_le0 24 128); [reflexivity|exact Q].
  - right. assert (SY : Bsign y = false) by (destruct y as [s|s| |s m e B]; try discriminate FY; [cbn in PY; lra|]; cbn [Bsign]; destruct s; [|reflexivity]; exfalso; apply (Rlt_not_le _ _ PY); apply F2R_le_0; cbn; lia).
    assert (SX : Bsign x = true).
    { destruct x as [s|s| |s m e B]; try discriminate FX.
      - exfalso. cbn [B2R] in E. unfold Rdiv in E. rewrite Rmult_0_l, round_0, Rabs_R0 in E by exact _. rewrite Rlt_bool_true in E by apply bpow_gt_0. discriminate E.
      - cbn [Bsign]. destruct s; [reflexivity|]. exfalso. apply (Rle_not_lt _ _ LX). apply F2R_gt_0. cbn. lia. }
    rewrite SX, SY in K. cbn in K. destruct (Bdiv mode_NE x y) as [s|s| |s m e B]; cbn in K; try discriminate K. injection K as ->. reflexivity.
Qed.
Lemma clamp_nonpos : forall z : float32, (is_finite z = true /\ B2R z <= 0) \/ z = B754_infinity true -> num 0 (clamp01 z : float32).
Proof.
  intros z H. destruct (f0_fin acosf) as [Z1 Z2]. destruct (f1_fin acosf) as [O1 O2]. unfold clamp01, std_clamp, A in *. cbn [fltb ieee].
  destruct H as [[FZ LZ]| ->].
  - destruct (Bltb z (f0 (A := ieee acosf))) eqn:L1; [split; [exact Z1|exact Z2]|].
    destruct (Bltb (f1 (A := ieee acosf)) z) eqn:L2.
    + apply (ltb_R 24 128) in L2; [|exact O1|exact FZ]. exfalso. rewrite O2 in L2. lra.
    + apply (ltb_false_R 24 128) in L1; [|exact FZ|exact Z1]. rewrite Z2 in L1. split; [exact FZ|lra].
  - rewrite f0_eq. split; reflexivity.
Qed.
Lemma normalize_naught : forall a b s : float32, is_finite a = true -> 0 <= B2R a -> is_finite b = true -> fltb b a = false -> naught s -> naught (normalize01 a b s).
Proof.
  intros a b s FA PA FB LE HS. unfold normalize01. unfold A in *. cbn [feqb fltb ieee] in *. destruct (f0_fin acosf) as [Z1 Z2].
  destruct (Beqb a b) eqn:E.
  - destruct (Bltb a s) eqn:L; [|exact naught_0]. exfalso. destruct HS as [N|[FS ES]]; [apply nan_eq in N; subst s; destruct a; discriminate L|].
    apply (ltb_R 24 128) in L; [|exact FA|exact FS]. lra.
  - destruct HS as [N|[FS ES]].
    + left. apply nan_eq in N. subst s. apply (clamp_nan acosf). cbn [fdiv fsub ieee]. destruct a, (Bminus mode_NE b _); try reflexivity; destruct b; reflexivity.
    + right. apply clamp_nonpos. cbn [fdiv fsub ieee].
      apply (ltb_false_R 24 128) in LE; [|exact FB|exact FA].
      assert (NE : B2R a <> B2R b) by (intros K; apply (eqb_R 24 128) in K; [congruence|exact FA|exact FB]).
      destruct (minus_fin 24 128 _ _ s a FS FA) as [M1 M2]; [rewrite ES, Rminus_0_l; apply small_bound with (x := a); [exact _|rewrite Rabs_Ropp; lra]|].
      destruct (minus_fin 24 128 _ _ b a FB FA) as [M3 M4]; [apply small_bound with (x := b); [exact _|rewrite !Rabs_pos_eq; lra]|].
      apply div_nonpos; [exact M1| |exact M3|].
      * rewrite M2. apply (rnd_le0 24 128); [reflexivity|lra].
      * assert (NZ : B2R (Bminus mode_NE b a) <> 0).
        { rewrite M4. unfold Rminus. apply (Plus_error.round_plus_neq_0 radix2 (SpecFloat.fexp 24 128) ZnearestE); [apply generic_format_B2R|apply generic_format_opp; apply generic_format_B2R|lra]. }
        assert (0 <= B2R (Bminus mode_NE b a)) by (rewrite M4; apply (rnd_ge0 24 128); [reflexivity|lra]). lra.
Qed.
Lemma div_naught : forall x y : float32, num 0 x -> is_finite y = true -> naught (Bdiv mode_NE x y).
Proof.
  intros x y HX FY. destruct (Req_dec (B2R y) 0) as [E|NE].
  - left. destruct HX as [FX EX]. destruct y as [s|s| |s m e B]; try discriminate FY.
    + destruct x as [s'|s'| |s' m e B]; try discriminate FX; [reflexivity|]. exfalso. cbn [B2R] in EX. apply eq_0_F2R in EX. destruct s'; discriminate EX.
    + exfalso. cbn [B2R] in E. apply eq_0_F2R in E. destruct s; discriminate E.
  - right. apply num_div0; assumption || exact _.
Qed.
Lemma confidence_naught : forall (k : KPredictor) pos e, est_rest e -> (0 <= kf_iter (k_x k) <= INT_MAX)%Z -> (1 <= cp_samples (kp_conf (k_params k)) <= INT_MAX)%Z ->
  fraction (cp_baseline (kp_conf (k_params k))) -> fin_le (pow 40) (d2f (kp_interval (k_params k)) : float32) ->
  is_finite (cp_min_speed (kp_conf (k_params k)) : float32) = true -> 0 <= B2R (cp_min_speed (kp_conf (k_params k)) : float32) ->
  is_finite (cp_max_speed (kp_conf (k_params k)) : float32) = true -> fltb (cp_max_speed (kp_conf (k_params k))) (cp_min_speed (kp_conf (k_params k))) = false ->
  naught (kpred_confidence k pos e).
Proof.
  intros k pos e E I S B TI F1 P1 F2 LE. unfold kpred_confidence. cbv zeta.
  pose proof (cubic_rest e _ E TI) as (EP & _). destruct E as (P & _). destruct TI as [TI _].
  pose proof (distance_0 acosf _ _ _ _ P EP) as D. 
  unfold A. cbn [fmul ieee].
  apply naught_mult; [|apply (fraction_interp acosf); [exact B|apply (fraction_rest acosf); apply (fraction_normalize acosf)]].
  apply mult_naught; [apply fraction_mult; [apply (fraction_min acosf); apply (ratio_nonneg acosf); assumption|apply (fraction_rest acosf); apply (fraction_normalize acosf)]|].
  apply normalize_naught; [exact F1|exact P1|exact F2|exact LE|]. exact (div_naught _ _ D TI).
Qed.
Lemma points_zero : forall (k : KPredictor) pos e n, naught (kpred_confidence k pos e) ->
  is_finite (d2f (dmul (kp_interval (k_params k)) (sp_rate (k_sampling k))) : float32) = true ->
  kpred_number_of_points k pos e = Some n -> n = 0%Z.
Proof.
  intros k pos e n C FT H. unfold kpred_number_of_points in H. cbv zeta in H. set (cf := kpred_confidence k pos e) in *. clearbody cf.
  set (tg := d2f (dmul (kp_interval (k_params k)) (sp_rate (k_sampling k)))) in *. clearbody tg. unfold A in *. change float32 in cf, tg.
  cbn [fmul fceil ftoint ieee] in H. rewrite f0_eq in H.
  assert (FIN : forall x : float32, b_to_int x = Some n -> num 0 x -> n = 0%Z).
  { intros x HX [_ EX]. apply to_int_some in HX; [|exact prec_lt_emax_32]. destruct HX as (_ & -> & _). rewrite EX. apply (Ztrunc_IZR 0). }
  destruct C as [NC|HC].
  - apply nan_eq in NC. subst cf. assert (E : Bnearbyint mode_UP (Bmult mode_NE tg B754_nan) = B754_nan) by (destruct tg; reflexivity).
    rewrite E in H. unfold std_fmax in H. cbn [fisnan ieee is_nan] in H. apply (FIN _ H). split; reflexivity.
  - assert (M : num 0 (Bmult mode_NE tg cf)) by (apply num_mult0; assumption || exact _).
    destruct M as [M1 M2]. destruct (ceil_fin 24 128 _ _ M1) as [C1 C2].
    set (c := Bnearbyint mode_UP (Bmult mode_NE tg cf)) in *. assert (NC : num 0 c) by (split; [exact C1|]; rewrite C2, M2; rewrite (Zceil_IZR 0); reflexivity). clearbody c.
    unfold std_fmax in H. cbn [fisnan fltb ieee is_nan] in H. destruct (is_nan c); [apply (FIN _ H); split; reflexivity|].
    destruct (Bltb (B754_zero false) c); apply (FIN _ H); [exact NC|split; reflexivity].
Qed.

(** *** The connector: one point *)
Lemma connector_one : forall (tip : TipState) e (kp : KalmanParams) (h : float64) n, Props_FRest.calm_tip acosf X Y tip -> est_rest e ->
  is_finite (kp_catchup kp : float32) = true -> 0 < B2R (kp_catchup kp : float32) -> B2R h <> 0 -> connector_points tip e kp h = Some n -> n = 1%Z.
Proof.
  intros tip e kp h n (TP & TV & _) (EP & EV & _) FC PC NH H. unfold connector_points in H. cbv zeta in H.
  pose proof (distance_0 acosf _ _ _ _ TP EP) as D. pose proof (magnitude_0 acosf _ TV) as M1. pose proof (magnitude_0 acosf _ EV) as M2. destruct (f1_fin acosf) as [O1 O2].
  unfold std_fmin, std_fmaxs, A in *.
  set (d := distance (A := ieee acosf) (t_pos tip) (ke_pos e) : float32) in *. set (v1 := magnitude (A := ieee acosf) (t_vel tip) : float32) in *. set (v2 := magnitude (A := ieee acosf) (ke_vel e) : float32) in *. set (c := kp_catchup kp : float32) in *. clearbody d v1 v2 c.
  cbn [fltb fdiv f2d ddiv d2f fceil ftoint fmaxval ieee] in H.
  set (one := f1 (A := ieee acosf) : float32) in *. clearbody one.
  assert (ED : Bltb (@Bmax_float 24 128 prec_gt_0_32 prec_lt_emax_32) d = false).
  { destruct D as [D1 D2]. destruct d as [s|s| |s m ee B]; try discriminate D1; [reflexivity|]. exfalso. cbn [B2R] in D2. apply eq_0_F2R in D2. destruct s; discriminate D2. }
  rewrite ED in H.
  match type of H with context [Bltb ?m c] => assert (EM : num 0 m) by (destruct (Bltb v1 v2); assumption); set (mv := m) in * end. clearbody mv.
  assert (EC : Bltb mv c = true) by (destruct EM as [E1 E2]; apply (ltb_R 24 128); [exact E1|exact FC|lra]). rewrite EC in H.
  assert (N1 : num 0 (Bdiv mode_NE d c)) by (apply num_div0; [exact D|lra]). destruct N1 as [N1 N1'].
  destruct (f2d_fin _ N1) as [N2 N2']. rewrite N1' in N2'. set (x := b32_to_b64 (Bdiv mode_NE d c)) in *. clearbody x.
  assert (N3 : num 0 (Bdiv mode_NE x h)) by (apply num_div0; [split; assumption|exact NH]).
  pose proof (num_narrow (B754_zero false) 0 (Bdiv mode_NE x h) (conj eq_refl eq_refl) N3) as N4. unfold A in N4. cbn [d2f ieee] in N4. set (y := b64_to_b32 (Bdiv mode_NE x h)) in *. clearbody y.
  destruct N4 as [N4 N4']. destruct (ceil_fin 24 128 _ y N4) as [C1 C2]. rewrite N4', (Zceil_IZR 0) in C2. set (cl := Bnearbyint mode_UP y) in *. clearbody cl.
  unfold std_fmax in H. cbn [fisnan fltb ieee] in H.
  assert (NN : forall z : float32, is_finite z = true -> is_nan z = false) by (intros []; try reflexivity; discriminate).
  rewrite (NN _ C1), (NN _ O1) in H. assert (EL : Bltb cl one = true) by (apply (ltb_R 24 128); [exact C1|exact O1|rewrite C2, O2; lra]). rewrite EL in H.
  apply to_int_some in H; [|exact prec_lt_emax_32]. destruct H as (_ & -> & _). rewrite O2. apply (Ztrunc_IZR 1).
Qed.
Lemma scaled : forall c x (k v : float32), (Z.abs c <= 4)%Z -> num (IZR c) k -> num x v -> Rabs x <= P30 -> num (rnd 24 128 (IZR c * x)) (Bmult mode_NE k v).
Proof.
  intros c x k v C [FK EK] [FV EV] B. destruct (mult_fin 24 128 _ _ k v FK FV) as [F E].
  - rewrite EK, EV. apply (pow_small32 40); [lia|]. rewrite Rabs_mult, <- abs_IZR.
    assert (Rabs (IZR c * x) <= 4 * P30).
    { rewrite Rabs_mult, <- abs_IZR. apply Rmult_le_compat; [apply (IZR_le 0); lia|apply Rabs_pos|apply (IZR_le _ 4); exact C|exact B]. }
    rewrite Rabs_mult, <- abs_IZR in H. eapply Rle_trans; [exact H|]. unfold P30. change (pow 40) with 1099511627776. lra.
  - split; [exact F|]. rewrite E, EK, EV. reflexivity.
Qed.
Lemma num_cancel : forall x (v w : float32), num (- x) v -> num x w -> num 0 (Bplus mode_NE v w).
Proof.
  intros x v w [F1 E1] [F2 E2]. destruct (plus_fin 24 128 _ _ v w F1 F2) as [F E].
  - rewrite E1, E2, Rplus_opp_l. apply small_0; exact _.
  - split; [exact F|]. rewrite E, E1, E2, Rplus_opp_l. apply rnd_0.
Qed.
Lemma num_ofZ : forall z, (Z.abs z < 2 ^ 24)%Z -> num (IZR z) (fofZ z : float32).
Proof. intros z H. exact (ofZ_32 z H). Qed.
Lemma connector_rest : forall (tip : TipState) e (d : float64), Props_FRest.calm_tip acosf X Y tip -> est_rest e -> Rabs X <= P30 -> Rabs Y <= P30 ->
  is_finite d = true -> pow (-15) <= B2R d <= pow 20 -> Props_FRest.calm_tip acosf X Y (connector_tip tip e d 1 1).
Proof.
  intros tip e d (TP & TV & _) (EP & EV & _) BX BY FD BD. unfold connector_tip. cbv zeta.
  pose proof (d2f_between d (-15) 20 ltac:(lia) ltac:(lia) FD BD) as D1. match goal with |- context [vscale ?x (t_vel tip)] => change (between (-15) 20 x) in D1; set (fd := x) in * end. clearbody fd.
  assert (D2 : between (-30) 40 (fmul fd fd)) by exact (mult_between (-15) 20 (-15) 20 fd fd ltac:(lia) ltac:(lia) D1 D1).
  pose proof (low_nonzero _ _ (between_low _ _ _ D1)) as Z1. pose proof (low_nonzero _ _ (between_low _ _ _ D2)) as Z2. pose proof (between_le _ _ _ D1) as [FF _].
  assert (T1 : num 1 (fdiv (fofZ 1) (fofZ 1) : float32)).
  { unfold A. cbn [fdiv ieee]. destruct (num_ofZ 1 eq_refl) as [F E]. unfold A in F, E. set (o := fofZ (Arith := ieee acosf) 1 : float32) in *. clearbody o.
    assert (Q : B2R o / B2R o = 1) by (rewrite E; field).
    destruct (div_fin 24 128 _ _ o o F) as [F' E']; [lra|rewrite Q; apply (pow_small32 0); [lia|rewrite Rabs_R1; cbn; lra]|]. split; [exact F'|]. rewrite E', Q.
    apply (rnd_id 24 128). exact (fmt_bpow 24 128 0 eq_refl ltac:(lia)). }
  set (t := fdiv (fofZ 1) (fofZ 1)) in *. clearbody t.
  assert (T2 : num 1 (fmul t t : float32)) by (unfold A; cbn [fmul ieee]; apply num_1mult; exact T1).
  assert (T3 : num 1 (fmul (fmul t t) t : float32)) by (unfold A; cbn [fmul ieee]; apply num_1mult; [exact T2|exact T1]).
  destruct T1 as [T1 _]. destruct T2 as [T2 _]. destruct T3 as [T3 _].
  pose proof (num_ofZ 2 eq_refl) as K2. pose proof (num_ofZ 3 eq_refl) as K3. pose proof (num_ofZ 6 eq_refl) as K6. pose proof (num_ofZ (-3) eq_refl) as KM.
  assert (HA : at_xy 0 0 (connector_a (t_pos tip) (t_vel tip) (ke_pos e) (ke_vel e) fd)).
  { unfold connector_a. apply vadd_0; [|apply vscale_0; [exact FF|apply vadd_0; assumption]].
    eapply vsub_same; (split; [apply (scaled 2); [lia|exact K2| |exact BX]|apply (scaled 2); [lia|exact K2| |exact BY]]); first [apply TP|apply EP]. }
  assert (HB : at_xy 0 0 (connector_b (t_pos tip) (t_vel tip) (ke_pos e) (ke_vel e) fd)).
  { unfold connector_b. apply vsub_0; [|apply vscale_0; [exact FF|apply vadd_0; [apply vscale_0; [apply K2|assumption]|assumption]]].
    assert (OP : forall x, rnd 24 128 (IZR (-3) * x) = - rnd 24 128 (IZR 3 * x)) by (intros x; rewrite <- (rnd_opp 24 128); f_equal; lra).
    split; [apply (num_cancel (rnd 24 128 (IZR 3 * X)))|apply (num_cancel (rnd 24 128 (IZR 3 * Y)))]; rewrite <- ?OP.
    - apply (scaled (-3)); [lia|exact KM|apply TP|exact BX].
    - apply (scaled 3); [lia|exact K3|apply EP|exact BX].
    - apply (scaled (-3)); [lia|exact KM|apply TP|exact BY].
    - apply (scaled 3); [lia|exact K3|apply EP|exact BY]. }
  set (a := connector_a _ _ _ _ _) in *. set (b := connector_b _ _ _ _ _) in *. clearbody a b.
  split; [|split]; cbn [t_pos t_vel t_acc].
  - apply vadd_0l; [|exact TP]. apply vadd_0; [|apply vscale_0; [exact T1|apply vscale_0; assumption]]. apply vadd_0; apply vscale_0; assumption.
  - apply vdiv_0; [exact Z1|]. apply vadd_0; [|apply vscale_0; assumption].
    apply vadd_0; (apply vscale_0; [assumption|]); apply vscale_0; [apply K3|exact HA|apply K2|exact HB].
  - apply vdiv_0; [exact Z2|]. apply vadd_0; [|apply vscale_0; [apply K2|exact HB]]. apply vscale_0; [exact T1|]. apply vscale_0; [apply K6|exact HA].
Qed.

(** *** The predictor *)
Lemma narrow_unit : forall x : float64, is_finite x = true -> 0 <= B2R x <= 1 -> fin_le (pow 40) (b64_to_b32 x).
Proof.
  intros x F B. destruct (d2f_fin x F) as [D1 D2]; [apply (pow_small32 0); [lia|]; rewrite Rabs_pos_eq by lra; cbn; lra|]. split; [exact D1|]. rewrite D2.
  apply rnd_abs_le; [reflexivity|exact (fmt_bpow 24 128 40 eq_refl ltac:(lia))|]. rewrite Rabs_pos_eq by lra. change (pow 40) with 1099511627776. lra.
Qed.
Lemma product_fin : forall x y : float64, is_finite x = true -> is_finite y = true -> 0 <= B2R x <= 1 -> 1 <= B2R y <= 16384 -> is_finite (b64_to_b32 (Bmult mode_NE x y)) = true.
Proof.
  intros x y FX FY BX BY. assert (BM : 0 <= B2R x * B2R y <= 16384) by nra.
  destruct (mult_fin 53 1024 _ _ x y FX FY) as [M1 M2].
  { eapply small_fmt_bound; [reflexivity|exact (fmt_bpow 53 1024 14 eq_refl ltac:(lia))|apply bpow_lt; lia|]. rewrite Rabs_pos_eq by apply BM. change (pow 14) with 16384. apply BM. }
  assert (BM2 : 0 <= B2R (Bmult mode_NE x y) <= pow 14).
  { rewrite M2. split; [apply rnd_ge0; [reflexivity|apply BM]|apply rnd_le_fmt; [reflexivity|exact (fmt_bpow 53 1024 14 eq_refl ltac:(lia))|change (pow 14) with 16384; apply BM]]. }
  apply (d2f_fin _ M1). apply (pow_small32 14); [lia|]. rewrite Rabs_pos_eq; apply BM2.
Qed.
Lemma kalman_rest : forall (k : KPredictor) (tip : TipState) tips (v : Vec2),
  at_xy X Y v -> Rabs X <= P30 -> Rabs Y <= P30 ->
  state_rest X (kf_state (k_x k)) -> state_rest Y (kf_state (k_y k)) ->
  Forall (fun t : float64 => is_finite t = true /\ Rabs (B2R t) <= 2147483648) (k_times k) ->
  (Z.of_nat (List.length (k_times k)) <= 1048576)%Z -> Props_FKalman.spread_out (k_times k) ->
  is_finite (kp_acc_weight (k_params k) : float32) = true -> is_finite (kp_jerk_weight (k_params k) : float32) = true ->
  is_finite (kp_catchup (k_params k) : float32) = true -> 0 < B2R (kp_catchup (k_params k) : float32) ->
  is_finite (kp_interval (k_params k) : float64) = true -> 0 <= B2R (kp_interval (k_params k) : float64) <= 1 ->
  (0 <= kf_iter (k_x k) <= INT_MAX)%Z -> (1 <= cp_samples (kp_conf (k_params k)) <= INT_MAX)%Z -> fraction (cp_baseline (kp_conf (k_params k))) ->
  is_finite (cp_min_speed (kp_conf (k_params k)) : float32) = true -> 0 <= B2R (cp_min_speed (kp_conf (k_params k)) : float32) ->
  is_finite (cp_max_speed (kp_conf (k_params k)) : float32) = true -> fltb (cp_max_speed (kp_conf (k_params k))) (cp_min_speed (kp_conf (k_params k))) = false ->
  is_finite (sp_rate (k_sampling k) : float64) = true -> 1 <= B2R (sp_rate (k_sampling k) : float64) <= 16384 ->
  Props_FRest.calm_tip acosf X Y tip -> k_last k <> None -> k_times k <> [] -> kpred_predict k tip = Ret tips ->
  if kpred_stable k then exists t, tips = [t] /\ Props_FRest.calm_tip acosf X Y t else tips = [].
Proof.
  intros k tip tips v VV BX BY SX SY FT LN SP W1 W2 FC PC FI BI IT CS BL S1 S2 S3 S4 FR BR TC KL KT H. unfold kpred_predict in H.
  destruct (kpred_estimate k) as [e|] eqn:EE.
  2:{ unfold kpred_estimate in EE. apply ret_inj in H. destruct (kpred_stable k); [|congruence]. destruct (k_times k); [congruence|discriminate EE]. }
  assert (ST : kpred_stable k = true) by (unfold kpred_estimate in EE; destruct (kpred_stable k); [reflexivity|discriminate EE]). rewrite ST.
  destruct (k_last k) as [pos|]; [|congruence]. cbv zeta in H.
  pose proof (estimate_rest k e v EE VV SX SY FT LN SP W1 W2) as ER. destruct (rate_scale _ BR) as (q & Q & BQ).
  destruct (period_between acosf _ q FR Q BQ) as [FH BH]. unfold A in *. set (h := ddiv (Arith := ieee acosf) (dofZ 1) (sp_rate (k_sampling k)) : float64) in *. clearbody h.
  assert (PH : 0 < B2R (h : float64)) by (pose proof (bpow_gt_0 radix2 (- (q + 1))); apply (Rlt_le_trans _ (pow (- (q + 1)))); [assumption|apply BH]).
  pose proof (narrow_unit _ FI BI) as DI. pose proof (product_fin _ _ FI FR BI BR) as DT.
  bind_inv H. rename x into conn. unfold cubic_connector, to_int in E. match type of E with context [connector_points ?a ?b ?c ?d] => destruct (connector_points a b c d) as [n|] eqn:CN end; [|discriminate E].
  pose proof (connector_one tip e (k_params k) h n TC ER FC PC (Rgt_not_eq _ _ PH) CN) as N1. subst n.
  cbv zeta in E. apply ret_inj in E. unfold to_int in H. destruct (kpred_number_of_points k pos e) as [n2|] eqn:EN; [|discriminate H]. apply ret_inj in H.
  pose proof (points_zero k pos e n2 (confidence_naught k pos e ER IT CS BL DI S1 S2 S3 S4) DT EN) as N2. subst n2.
  change (Z.to_nat 1) with 1%nat in E. cbn [seq map] in E. change (Z.to_nat 0) with 0%nat in H. cbn [cubic_prediction] in H. rewrite app_nil_r in H. subst tips conn.
  eexists. split; [reflexivity|]. destruct (duration_between acosf h 1 FH) as [FD BD]; [split; [eapply Rle_trans; [|apply BH]; apply bpow_le; lia|eapply Rle_trans; [apply BH|]; apply bpow_le; lia]|lia|].
  apply connector_rest; assumption.
Qed.
Lemma valid_speeds : forall (p : StrokeModelParams) kp, validate_params p = OkStatus -> p_prediction p = PredKalman kp ->
  is_finite (kp_catchup kp : float32) = true /\ 0 < B2R (kp_catchup kp : float32) /\
  is_finite (cp_min_speed (kp_conf kp) : float32) = true /\ 0 <= B2R (cp_min_speed (kp_conf kp) : float32) /\
  is_finite (cp_max_speed (kp_conf kp) : float32) = true /\ fltb (cp_max_speed (kp_conf kp)) (cp_min_speed (kp_conf kp)) = false.
Proof.
  intros p kp V P. destruct (validate_params_parts p V) as (_ & _ & _ & _ & VP & _).
  rewrite P in VP. cbn [validate_prediction] in VP. unfold validate_kalman in VP. cbv zeta in VP.
  do 4 (apply and_then_ok in VP; destruct VP as [_ VP]). apply and_then_ok in VP. destruct VP as [K1 VP].
  do 5 (apply and_then_ok in VP; destruct VP as [_ VP]). apply and_then_ok in VP. destruct VP as [K2 VP]. apply and_then_ok in VP. destruct VP as [K3 VP].
  destruct (fltb (cp_max_speed (kp_conf kp)) (cp_min_speed (kp_conf kp))) eqn:L; [discriminate VP|]. clear VP.
  apply (gt0_f_F acosf) in K1. apply (ge0_f_iff acosf) in K2. apply (finite_f_F acosf) in K3. destruct K1, K2. repeat split; assumption.
Qed.
Lemma widen : forall (x : float32) v, num v x -> num v (f2d x : float64).
Proof. intros x v [F E]. destruct (f2d_fin x F) as [F' E']. split; [exact F'|]. unfold A. cbn [f2d ieee]. rewrite E'. exact E. Qed.
Lemma predicting_rest : forall (p : StrokeModelParams) kp cert l pr, p_prediction p = PredKalman kp -> (0 < kp_max_times kp)%Z ->
  filter_certified acosf (kp_process kp) (kp_measure kp) cert = true -> Rabs X <= P30 -> Rabs Y <= P30 ->
  predicting p l pr -> Forall (fun a => at_xy X Y (snd a)) l ->
  exists k, pr = Some (PKal k) /\ k_params k = kp /\ k_sampling k = p_sampling p /\
    k_times k = most_recent (kp_max_times kp) (map (fun a => i_time (fst a)) l) /\ (l <> [] -> k_last k <> None) /\
    filter_rest (kp_process kp) (kp_measure kp) cert X (k_x k) /\ filter_rest (kp_process kp) (kp_measure kp) cert Y (k_y k) /\
    kf_iter (k_x k) = Z.of_nat (List.length l) /\ kf_iter (k_y k) = Z.of_nat (List.length l).
Proof.
  intros p kp cert l pr P MT C BX BY H. induction H as [|l pr i c pr' H IH U]; intros FA.
  - unfold make_predictor. rewrite P. eexists. split; [reflexivity|]. cbn [k_params k_sampling k_times k_last k_x k_y].
    repeat (split; [reflexivity|]). split; [congruence|]. 
    assert (FR : forall v, filter_rest (kp_process kp) (kp_measure kp) cert v kf_reset) by (intros v; split; [apply filter_reset_small|cbn [kf_reset kf_iter]; lia]).
    split; [apply FR|]. split; [apply FR|]. split; reflexivity.
  - apply Forall_app in FA. destruct FA as [FA FC]. apply Forall_inv in FC. cbn [snd] in FC. destruct FC as [CX CY].
    destruct (IH FA) as (k & -> & K1 & K2 & K3 & K4 & K5 & K6 & K7 & K8).
    cbn [upd_pred pred_update] in U. bind_inv U. apply ret_inj in U. subst pr'. bind_inv E. apply ret_inj in E. subst x. rename x0 into k'.
    unfold kpred_update in E0. rewrite K1 in E0. bind_inv E0. bind_inv E0. apply ret_inj in E0. subst k'. eexists. split; [reflexivity|]. cbn [k_params k_sampling k_last k_times k_x k_y].
    split; [reflexivity|]. split; [exact K2|]. split; [|split; [discriminate|]].
    + rewrite K3, map_app. cbn [map fst]. rewrite recent_step by exact MT. reflexivity.
    + destruct (rest_update _ _ cert X _ _ _ C BX (widen _ _ CX) K5 E) as [R1 R2]. destruct (rest_update _ _ cert Y _ _ _ C BY (widen _ _ CY) K6 E1) as [R3 R4].
      rewrite app_length. cbn [List.length]. split; [exact R1|]. split; [exact R3|]. split; [rewrite R2, K7; lia|rewrite R4, K8; lia].
Qed.
Lemma smoothing_off : forall wp l cs st, smoothing wp l cs st -> wp_enabled wp = false -> cs = map i_pos l.
Proof.
  intros wp l cs st H E. induction H as [d|l cs st i c st' H IH W]; [reflexivity|]. rewrite map_app, (IH). cbn [map]. f_equal. f_equal.
  unfold wstep in W. bind_inv W. destruct x as [w c0]. apply ret_inj in W. injection W as _ <-. apply Props_FRest.wobble_off in E0; [exact E0|exact E].
Qed.
End FKRest.

Lemma recent_some : forall {T} n (l : list T), (1 <= n)%Z -> (1 <= List.length l)%nat -> most_recent n l <> [].
Proof. intros T n l N L E. apply (f_equal (@List.length _)) in E. unfold most_recent in E. rewrite skipn_length in E. cbn [List.length] in E. lia. Qed.

(** ** C43 *)
(** While every input of the stroke is at [q], the prediction is one result,
    exactly at [q] and exactly at rest, once the filter has seen enough inputs. *)
Theorem C43_float_resting_kalman_prediction : forall acosf (A := ieee acosf) fuel hist s (p : StrokeModelParams (A := ieee acosf)) kp es seen (q : Vec2 (A := ieee acosf)) rs out,
  after_seen fuel hist s es seen -> ps_params s = Some p -> p_prediction p = PredKalman kp -> ordinary_params p -> moderate_kalman kp ->
  1 <= B2R (sp_rate (p_sampling p) : float64) <= 16384 ->
  finite_point q -> resting_inputs q seen -> Forall moderate_input seen ->
  Props_FKalman.spread_out (most_recent (kp_max_times kp) (map (fun e => i_time (fst e)) es)) ->
  answers fuel hist [CPredict rs] = Ret [RResults OkStatus out] ->
  if (Z.of_nat (List.length es) <? kp_min_stable kp)%Z then out = [] else exists r, out = [r] /\ stands q r.
Proof.
  intros acosf A fuel hist s p kp es seen q rs out AS P PS O (CE & MT & CS & W1 & W2 & BI) BR FQ RI MI SP AN. subst A.
  assert (AF : after fuel hist s) by (destruct AS as (ma & rsa & Ra & Pa & _); exists ma, rsa; auto).
  destruct (frest_state acosf (B2R (vx q : float32)) (B2R (vy q : float32)) fuel hist s es seen AS) as (m & rs0 & R0 & (T1 & T2 & _) & G & C & J).
  destruct (remembered_state _ _ _ _ _ AS) as (m1 & rs1 & R1 & _ & _ & _ & RM). rewrite R0 in R1. injection R1 as <- <-.
  destruct (accepted_predict _ _ _ _ _ _ AF AN) as (m1 & r0 & m' & R & _ & _ & _ & U). rewrite R0 in R. injection R as <- <-.
  destruct (prd_ok fuel m m' out U) as (p' & pr & last0 & tips & lm & MQ & MPR & ML & PC & MS & _). rewrite T1 in P.
  assert (p' = p) by congruence. subst p'. pose proof (g_valid _ G p P) as V. pose proof (resting_restful _ p q seen FQ O RI) as RF. pose proof (J p last0 MQ ML RF) as JJ.
  destruct (RM p last0 MQ ML) as (cs & ws & [H1 H2 H3 H4 H5 H6]).
  assert (ON : prediction_on p = true) by (unfold prediction_on; rewrite PS; reflexivity). specialize (H6 ON).
  destruct (C p MQ ltac:(left; congruence)) as (C1 & C2 & C3 & C4).
  destruct JJ as [[J1 J1'] J2 J3 J4 J5 J6 [J7 J7'] J8]. cbn [core_of co_w co_s co_last co_l co_pred co_tip] in *. rewrite ON, MPR in *.
  destruct (valid_kalman_F acosf p kp V PS) as (K1 & K2 & K3 & K4 & K5 & K6 & K7). destruct (valid_speeds acosf p kp V PS) as (S1 & S2 & S3 & S4 & S5 & S6).
  set (X := B2R (vx q : float32)) in *. set (Y := B2R (vy q : float32)) in *.
  assert (SEEN : forall i, In i seen -> at_xy acosf X Y (i_pos i)) by (apply Forall_forall; apply RF).
  assert (SB : Rabs X <= P30 /\ Rabs Y <= P30).
  { destruct J3 as (l0 & j & EJ & _). assert (IN : In j seen) by (rewrite EJ; apply in_or_app; right; left; reflexivity).
    rewrite Forall_forall in MI. destruct (MI j IN) as (([_ M1] & [_ M2]) & _). destruct (SEEN j IN) as [[_ E1] [_ E2]].
    change (pow 30) with P30 in M1, M2. split; [exact (eq_ind _ (fun z => Rabs z <= P30) M1 _ E1)|exact (eq_ind _ (fun z => Rabs z <= P30) M2 _ E2)]. }
  destruct SB as [BX BY]. destruct CE as (cert & CE). destruct O as (OW & O').
  assert (WS : Forall (fun a => at_xy acosf X Y (snd a)) (combine (map fst es) ws)).
  { apply Forall_forall. intros [i w] IN. apply (subseq_in _ _ _ H4) in IN. rewrite (smoothing_off acosf _ _ _ _ H1 OW) in IN. cbn [snd].
    assert (K : forall l, In (i, w) (combine l (map i_pos l)) -> In i l /\ w = i_pos i).
    { clear. induction l as [|a l IH]; intros H; [destruct H|]. cbn [map combine] in H. destruct H as [H|H]; [injection H as -> <-; split; [left|]; reflexivity|]. destruct (IH H). split; [right|]; assumption. }
    destruct (K _ IN) as [K0 ->]. apply SEEN. exact K0. }
  destruct (predicting_rest acosf X Y p kp cert _ _ PS ltac:(lia) CE BX BY H6 WS) as (k & EK & Q1 & Q2 & Q3 & Q4 & [Q5 Q5'] & [Q6 Q6'] & Q7 & Q8).
  apply some_inj in EK. subst pr. cbn [pred_construct] in PC.
  assert (LP : List.length (combine (map fst es) ws) = List.length es) by (rewrite combine_length, map_length, H3; apply Nat.min_id).
  assert (L0 : (1 <= List.length es)%nat).
  { destruct H5 as (e0 & w0 & o0 & H5a & _). rewrite H5a, app_length. cbn [List.length]. lia. }
  assert (TM : map (fun a => i_time (fst a)) (combine (map fst es) ws) = map (fun e => i_time (fst e)) es).
  { clear - H3. revert ws H3. induction es as [|e es IH]; intros [|w ws] H; try discriminate H; [reflexivity|]. cbn. f_equal. apply IH. injection H as H. exact H. }
  rewrite TM in Q3. rewrite LP in Q7, Q8.
  assert (IB : (0 <= kf_iter (k_x k) <= INT_MAX)%Z).
  { destruct (predicting_kalman_F acosf p kp _ _ PS ltac:(lia) H6) as (k2 & EK2 & _ & _ & _ & Q9). apply some_inj in EK2. injection EK2 as <-. exact Q9. }
  pose proof (model_stylus_length _ _ _ _ _ _ _ _ MS) as LN.
  assert (KR : if kpred_stable k then exists t, tips = [t] /\ Props_FRest.calm_tip acosf X Y t else tips = []).
  { subst kp. apply (kalman_rest acosf X Y k (pm_state (m_pos m)) tips q); try assumption.
    - destruct FQ. split; split; auto.
    - apply Q5'. lia.
    - apply Q6'. lia.
    - rewrite Q3. apply Forall_forall. intros t IN.
      assert (IN2 : In t (map (fun e => i_time (fst e)) es)).
      { unfold most_recent in IN. rewrite <- (firstn_skipn (List.length (map (fun e : entry => i_time (fst e)) es) - Z.to_nat (kp_max_times (k_params k))) _). apply in_or_app. right. exact IN. }
      rewrite <- TM in IN2. apply in_map_iff in IN2. destruct IN2 as ([i w] & <- & IN2). apply (subseq_in _ _ _ H4) in IN2. apply in_combine_l in IN2.
      rewrite Forall_forall in MI. destruct (MI i IN2) as (_ & K & _). exact K.
    - rewrite Q3. unfold most_recent. rewrite skipn_length, map_length. lia.
    - rewrite Q3. exact SP.
    - lra.
    - lia.
    - rewrite Q2. destruct (validate_params_parts p V) as (_ & _ & VS & _). unfold validate_sampling in VS. apply and_then_ok in VS. destruct VS as [VR _]. apply gt0_d_F in VR. apply VR.
    - rewrite Q2. exact BR.
    - apply Q4. intros E. apply (f_equal (@List.length _)) in E. rewrite LP in E. cbn [List.length] in E. lia.
    - rewrite Q3. apply recent_some; [exact K1|]. rewrite map_length. exact L0. }
  assert (ES : kpred_stable k = negb (Z.of_nat (List.length es) <? kp_min_stable kp)%Z).
  { unfold kpred_stable. rewrite Q7, Q8, Q1, andb_diag. rewrite Z.ltb_antisym, negb_involutive. reflexivity. }
  rewrite ES in KR. destruct (Z.of_nat (List.length es) <? kp_min_stable kp)%Z; cbn [negb] in KR.
  - subst tips. destruct out; [reflexivity|discriminate LN].
  - destruct KR as (t & -> & TR). destruct out as [|r [|r' l]]; try discriminate LN. exists r. split; [reflexivity|]. apply calm_stands; [exact FQ|].
    apply (Forall_inv (l := [])). eapply Props_FRest.model_stylus_calm; [exact J2|constructor; [exact TR|constructor]|exact J5|rewrite C4; apply bounds_ok; [exact V|split; assumption]|eapply recalled; eassumption|exact MS].
Qed.
