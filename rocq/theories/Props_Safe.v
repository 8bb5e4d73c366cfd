(** * C45: no history of calls runs into undefined behaviour, in IEEE arithmetic. *)
From Coq Require Import ZArith Bool List Reals Lra Lia Psatz.
From Flocq Require Import Core.Core IEEE754.BinarySingleNaN.
From Verif Require Export NoUB Flt FltAngle Ieee.
Import ListNotations.
Open Scope R_scope.

(** ** hypot *)
Lemma fmt_square : forall x : float32, fmt64 (B2R x * B2R x).
Proof.
  intros [s|s| |s m e H]; cbn [B2R]; try (rewrite Rmult_0_l; apply fmt_0; reflexivity).
  pose proof (proj1 (andb_prop _ _ H)) as HC. pose proof (bounded_lt_emax 24 128 m e H) as HB.
  apply andb_prop in H. destruct H as [H _].
  assert (K : (Z.pos m < 2 ^ 24)%Z /\ (-149 <= e)%Z).
  { unfold SpecFloat.canonical_mantissa in HC. apply Zeq_bool_eq in HC.
    unfold SpecFloat.fexp, SpecFloat.emin in HC. rewrite Digits.Zpos_digits2_pos in HC.
    split; [|lia].
    assert (D : (Digits.Zdigits radix2 (Z.pos m) <= 24)%Z) by lia.
    apply (Digits.Zpower_gt_Zdigits radix2 24 (Z.pos m)) in D. cbn [Z.abs] in D. exact D. }
  destruct K as [K1 K2].
  assert (M : (Z.abs (cond_Zopp s (Z.pos m)) < 2 ^ 24)%Z) by (destruct s; exact K1).
  set (z := cond_Zopp s (Z.pos m)) in *. unfold F2R; cbn [Fnum Fexp].
  replace (IZR z * bpow radix2 e * (IZR z * bpow radix2 e)) with (IZR (z * z) * bpow radix2 (e + e)).
  - apply fmt_FLT; [|lia]. rewrite Z.abs_mul. nia.
  - rewrite mult_IZR, bpow_plus. ring.
Qed.

Lemma f32_bound : forall x : float32, Rabs (B2R x) <= IZR (2 ^ 128).
Proof. intros x. rewrite <- bpow_128. left. apply (B2R_lt_emax 24 128). Qed.

Lemma square_le : forall a b, 0 <= b -> Rabs a <= b -> a * a <= b * b.
Proof. intros a b B H. apply Rabs_le_inv in H. nra. Qed.

Lemma hypot_fin : forall x y : float32, is_finite x = true -> is_finite y = true ->
  nonneg32 (b_hypot x y) /\
  (is_finite (b_hypot x y) = true -> Rabs (B2R x) <= B2R (b_hypot x y) /\ Rabs (B2R y) <= B2R (b_hypot x y)).
Proof.
  intros x y FX FY. unfold b_hypot.
  replace (is_inf x || is_inf y) with false by (destruct x, y; try discriminate FX; try discriminate FY; reflexivity).
  destruct (f2d_fin x FX) as [X1 X2]. destruct (f2d_fin y FY) as [Y1 Y2].
  pose proof (f32_bound x) as BX. pose proof (f32_bound y) as BY.
  assert (P128 : 0 <= IZR (2 ^ 128)) by (apply IZR_le; lia).
  assert (B256 : IZR (2 ^ 128) * IZR (2 ^ 128) + IZR (2 ^ 128) * IZR (2 ^ 128) <= IZR (2 ^ 1023)).
  { rewrite <- mult_IZR, <- plus_IZR. apply IZR_le. now vm_compute. }
  pose proof (square_le _ _ P128 BX) as SX. pose proof (square_le _ _ P128 BY) as SY.
  pose proof (Rle_0_sqr (B2R x)) as QX. pose proof (Rle_0_sqr (B2R y)) as QY. unfold Rsqr in QX, QY.
  destruct (mult_fin 53 1024 _ _ _ _ X1 X1) as [MX1 MX2].
  { rewrite X2. apply small_le64. rewrite Rabs_pos_eq by exact QX. lra. }
  destruct (mult_fin 53 1024 _ _ _ _ Y1 Y1) as [MY1 MY2].
  { rewrite Y2. apply small_le64. rewrite Rabs_pos_eq by exact QY. lra. }
  rewrite X2 in MX2. rewrite Y2 in MY2. rewrite rnd_id in MX2 by apply fmt_square. rewrite rnd_id in MY2 by apply fmt_square.
  destruct (plus_fin 53 1024 _ _ _ _ MX1 MY1) as [S1 S2].
  { rewrite MX2, MY2. apply small_le64. rewrite Rabs_pos_eq by lra. lra. }
  rewrite MX2, MY2 in S2.
  assert (GX : B2R x * B2R x <= B2R (Bplus mode_NE (Bmult mode_NE (b32_to_b64 x) (b32_to_b64 x)) (Bmult mode_NE (b32_to_b64 y) (b32_to_b64 y)))).
  { rewrite S2. apply rnd_ge_fmt; [reflexivity|apply fmt_square|lra]. }
  assert (GY : B2R y * B2R y <= B2R (Bplus mode_NE (Bmult mode_NE (b32_to_b64 x) (b32_to_b64 x)) (Bmult mode_NE (b32_to_b64 y) (b32_to_b64 y)))).
  { rewrite S2. apply rnd_ge_fmt; [reflexivity|apply fmt_square|lra]. }
  set (S := Bplus mode_NE (Bmult mode_NE (b32_to_b64 x) (b32_to_b64 x)) (Bmult mode_NE (b32_to_b64 y) (b32_to_b64 y))) in *.
  destruct (sqrt_fin 53 1024 _ _ S S1) as [R1 R2]; [lra|].
  assert (HX : Rabs (B2R x) <= B2R (Bsqrt mode_NE S)).
  { rewrite R2. apply rnd_ge_fmt; [reflexivity|apply fmt_abs, fmt_32_64, fmt_B2R|].
    rewrite <- (sqrt_Rsqr_abs (B2R x)). apply sqrt_le_1_alt. exact GX. }
  assert (HY : Rabs (B2R y) <= B2R (Bsqrt mode_NE S)).
  { rewrite R2. apply rnd_ge_fmt; [reflexivity|apply fmt_abs, fmt_32_64, fmt_B2R|].
    rewrite <- (sqrt_Rsqr_abs (B2R y)). apply sqrt_le_1_alt. exact GY. }
  assert (NN : nonneg64 (Bsqrt mode_NE S)).
  { apply nonneg_fin; [exact R1|]. eapply Rle_trans; [apply Rabs_pos|exact HX]. }
  split; [apply d2f_nonneg; exact NN|]. intros F.
  assert (SM : small32 (B2R (Bsqrt mode_NE S))).
  { unfold small. destruct (Rlt_le_dec (Rabs (r32 (B2R (Bsqrt mode_NE S)))) (bpow radix2 128)) as [L|L]; [exact L|].
    rewrite d2f_over in F; [discriminate F|exact R1|unfold small; lra]. }
  destruct (d2f_fin _ R1 SM) as [_ E]. rewrite E.
  split; (apply rnd_ge_fmt; [reflexivity|apply fmt_abs, fmt_B2R|assumption]).
Qed.

(** A component of a finite vector over the magnitude is a number of size at most 1. *)
Definition small1 (x : float32) : Prop := is_finite x = true /\ Rabs (B2R x) <= 1.

Lemma div_unit : forall x h : float32, is_finite x = true -> nonneg32 h ->
  (is_finite h = true -> Rabs (B2R x) <= B2R h) -> Beqb h (B754_zero false) = false -> small1 (Bdiv mode_NE x h).
Proof.
  intros x h FX NH LE NZ. destruct (is_finite h) eqn:FH.
  - specialize (LE eq_refl). assert (HZ : B2R h <> 0) by (apply (eqb_false_R 24 128 h (B754_zero false)) in NZ; auto).
    assert (HP : 0 < B2R h) by (pose proof (Rabs_pos (B2R x)); lra).
    assert (Q : Rabs (B2R x / B2R h) <= 1).
    { unfold Rdiv. rewrite Rabs_mult, Rabs_inv, (Rabs_pos_eq (B2R h)) by lra.
      apply Rmult_le_reg_r with (B2R h); [exact HP|]. rewrite Rmult_assoc, Rinv_l by exact HZ. lra. }
    destruct (div_fin 24 128 _ _ x h FX HZ) as [K1 K2].
    { apply small_le32. eapply Rle_trans; [exact Q|]. apply IZR_le. lia. }
    split; [exact K1|]. rewrite K2. apply rnd_abs_le; [reflexivity|apply (fmt_IZR 24 128 1); lia|exact Q].
  - destruct h as [s|s| |s m e H]; try discriminate FH; [|contradiction NH].
    destruct x as [sx|sx| |sx mx ex Hx]; try discriminate FX; (split; [reflexivity|cbn; rewrite Rabs_R0; lra]).
Qed.

Section Safe.
Variable acosf : float32 -> float32.
Notation AI := (ieee acosf).

(** What is needed of the C library: acosf of a number in [-1, 1] is a
    non-negative number. *)
Definition acosf_sound : Prop := forall x : float32,
  Bleb (b32 (-1) 0) x = true -> Bleb x (b32 1 0) = true -> Bleb (B754_zero false) (acosf x) = true.

Lemma clamp1 : forall x : float32, is_finite x = true ->
  Bleb (b32 (-1) 0) (@std_clamp AI x (@fm1 AI) (@f1 AI)) = true /\
  Bleb (@std_clamp AI x (@fm1 AI) (@f1 AI)) (b32 1 0) = true.
Proof.
  intros x F. unfold std_clamp. cbn [fltb ieee].
  change (b32 (-1) 0) with (@fm1 AI). change (b32 1 0) with (@f1 AI).
  destruct (f1_fin acosf) as [A1 A2], (fm1_fin acosf) as [B1 B2].
  destruct (Bltb x (@fm1 AI)) eqn:E1.
  - split; apply (leb_R 24 128); auto; rewrite ?A2, ?B2; lra.
  - apply (ltb_false_R 24 128) in E1; auto. destruct (Bltb (@f1 AI) x) eqn:E2.
    + split; apply (leb_R 24 128); auto; rewrite ?A2, ?B2; lra.
    + apply (ltb_false_R 24 128) in E2; auto. split; apply (leb_R 24 128); auto; rewrite ?A2, ?B2 in *; lra.
Qed.

(** The angle between two vectors is 0 or the arc cosine of a number in [-1, 1]. *)
Lemma angle_value : forall (u v : @Vec2 AI) (a : float32), @absolute_angle_to AI u v = Some a ->
  a = B754_zero false \/ exists x : float32, Bleb (b32 (-1) 0) x = true /\ Bleb x (b32 1 0) = true /\ a = acosf x.
Proof.
  intros [ux uy] [wx wy] a H. unfold absolute_angle_to, vfinite, fisfinite in H. cbn [vx vy fisnan fisinf ieee] in H.
  assert (FIN : forall x : float32, negb (is_nan x) && negb (is_inf x) = true -> is_finite x = true)
    by (intros [] Q; try discriminate Q; reflexivity).
  destruct (negb (is_nan ux) && negb (is_inf ux)) eqn:E1; [|discriminate H].
  destruct (negb (is_nan uy) && negb (is_inf uy)) eqn:E2; [|discriminate H].
  destruct (negb (is_nan wx) && negb (is_inf wx)) eqn:E3; [|discriminate H].
  destruct (negb (is_nan wy) && negb (is_inf wy)) eqn:E4; [|discriminate H].
  apply FIN in E1, E2, E3, E4. cbn [negb andb orb] in H.
  unfold magnitude in H. cbn [vx vy fhypot feqb ieee] in H. rewrite f0_eq in H.
  destruct (hypot_fin ux uy E1 E2) as [NU LU]. destruct (hypot_fin wx wy E3 E4) as [NW LW].
  destruct (Beqb (b_hypot ux uy) (B754_zero false)) eqn:Z1; [cbn [orb] in H; injection H as <-; left; reflexivity|].
  destruct (Beqb (b_hypot wx wy) (B754_zero false)) eqn:Z2; [cbn [orb] in H; injection H as <-; left; reflexivity|].
  cbn [orb] in H. unfold vdot, vdiv in H. cbn [vx vy fdiv fmul fadd facos ieee] in H. injection H as <-.
  destruct (div_unit ux _ E1 NU (fun F => proj1 (LU F)) Z1) as [A1 A2].
  destruct (div_unit uy _ E2 NU (fun F => proj2 (LU F)) Z1) as [B1 B2].
  destruct (div_unit wx _ E3 NW (fun F => proj1 (LW F)) Z2) as [C1 C2].
  destruct (div_unit wy _ E4 NW (fun F => proj2 (LW F)) Z2) as [D1 D2].
  set (p := Bdiv mode_NE ux _) in *. set (q := Bdiv mode_NE wx _) in *.
  set (p' := Bdiv mode_NE uy _) in *. set (q' := Bdiv mode_NE wy _) in *.
  assert (PR : forall a b : float32, is_finite a = true -> is_finite b = true -> Rabs (B2R a) <= 1 -> Rabs (B2R b) <= 1 ->
     is_finite (Bmult mode_NE a b) = true /\ Rabs (B2R (Bmult mode_NE a b)) <= 1).
  { intros x y FX FY LX LY. assert (Q : Rabs (B2R x * B2R y) <= 1).
    { rewrite Rabs_mult. pose proof (Rabs_pos (B2R x)). pose proof (Rabs_pos (B2R y)). nra. }
    destruct (mult_fin 24 128 _ _ x y FX FY) as [K1 K2].
    { apply small_le32. eapply Rle_trans; [exact Q|]. apply IZR_le. lia. }
    split; [exact K1|]. rewrite K2. apply rnd_abs_le; [reflexivity|apply (fmt_IZR 24 128 1); lia|exact Q]. }
  destruct (PR p q A1 C1 A2 C2) as [M1 M2]. destruct (PR p' q' B1 D1 B2 D2) as [N1 N2].
  destruct (plus_fin 24 128 _ _ _ _ M1 N1) as [F _].
  { apply small_le32. eapply Rle_trans; [apply Rabs_triang|]. apply Rle_trans with 2; [lra|]. apply IZR_le. lia. }
  destruct (clamp1 _ F) as [L1 L2]. right. eexists. split; [exact L1|]. split; [exact L2|reflexivity].
Qed.
Lemma angle_nonneg : forall (u v : @Vec2 AI) a, acosf_sound -> @absolute_angle_to AI u v = Some a -> nonneg32 a.
Proof.
  intros u v a HA H. destruct (angle_value u v a H) as [->|(x & L1 & L2 & ->)]; [apply nonneg_fin; [reflexivity|cbn; lra]|].
  apply leb_nonneg. apply HA; assumption.
Qed.

(** Validated numbers are finite. *)
Lemma finite_d_F : forall (v : float64) l, @validate_finite_d AI v l = OkStatus -> is_finite v = true.
Proof. intros [] l H; try reflexivity; discriminate H. Qed.
Lemma finite_f_F : forall (v : float32) l, @validate_finite_f AI v l = OkStatus -> is_finite v = true.
Proof. intros [] l H; try reflexivity; discriminate H. Qed.
Lemma gt0_d_F : forall (v : float64) l, @validate_gt0_d AI v l = OkStatus -> is_finite v = true /\ 0 < B2R v.
Proof.
  intros v l H. unfold validate_gt0_d in H. apply and_then_ok in H. destruct H as [H1 H2].
  apply finite_d_F in H1. split; [exact H1|]. cbn [dleb ieee] in H2. rewrite d0_eq in H2.
  destruct (Bleb v (B754_zero false)) eqn:E; [discriminate H2|].
  destruct (Rlt_le_dec 0 (B2R v)) as [L|L]; [exact L|].
  apply (leb_R 53 1024 v (B754_zero false) H1 eq_refl) in L. congruence.
Qed.
Lemma ge0_d_F : forall (v : float64) l, @validate_ge0_d AI v l = OkStatus -> is_finite v = true /\ 0 <= B2R v.
Proof.
  intros v l H. unfold validate_ge0_d in H. apply and_then_ok in H. destruct H as [H1 H2].
  apply finite_d_F in H1. split; [exact H1|]. cbn [dltb ieee] in H2. rewrite d0_eq in H2.
  destruct (Bltb v (B754_zero false)) eqn:E; [discriminate H2|].
  apply (ltb_false_R 53 1024 v (B754_zero false) H1 eq_refl) in E. exact E.
Qed.
Lemma input_F : forall i : @Input AI, @validate_input AI i = OkStatus ->
  is_finite (vx (i_pos i) : float32) = true /\ is_finite (vy (i_pos i) : float32) = true /\ is_finite (i_time i : float64) = true.
Proof.
  intros i H. unfold validate_input in H. destruct (i_event i); try discriminate H;
    (apply and_then_ok in H; destruct H as [H1 H]; apply and_then_ok in H; destruct H as [H2 H3];
     apply finite_f_F in H1, H2; apply finite_d_F in H3; auto).
Qed.

Lemma min_to_int : forall x : float64, nonneg64 x -> exists z, b_to_int (@std_dmin AI x (@dofZ AI INT_MAX)) = Some z.
Proof.
  intros x N. unfold std_dmin. cbn [dltb dofZ ieee].
  destruct (ofZ_64 INT_MAX) as [I1 I2]; [reflexivity|]. set (M := binary_normalize 53 1024 _ _ mode_NE INT_MAX 0 false) in *.
  destruct (Bltb M x) eqn:E.
  - eexists. apply to_int_fits; [exact _|exact I1|]. rewrite I2. split; [apply IZR_le; now vm_compute|lra].
  - destruct (is_finite x) eqn:F.
    + apply (ltb_false_R 53 1024) in E; [|exact I1|exact F]. rewrite I2 in E.
      eexists. apply to_int_fits; [exact _|exact F|]. split; [|exact E].
      apply Rle_trans with 0; [apply IZR_le; now vm_compute|]. destruct x; try discriminate F; exact N.
    + exfalso. destruct x as [s|s| |s m e H]; try discriminate F; [|contradiction N].
      cbn in N. subst s. assert (Q : Bltb M (B754_infinity false) = true) by (vm_compute; reflexivity). congruence.
Qed.

Lemma steps_noub : acosf_sound -> forall (tip : @TipState AI) a b p, @validate_params AI p = OkStatus ->
  @validate_input AI a = OkStatus -> @validate_input AI b = OkStatus -> @dltb AI (i_time b) (i_time a) = false ->
  noub (@number_of_steps AI tip a b (p_sampling p) (p_position p)).
Proof.
  intros HA tip a b p V VA VB DL. unfold number_of_steps.
  apply input_F in VA. destruct VA as (_ & _ & FA). apply input_F in VB. destruct VB as (_ & _ & FB).
  destruct (validate_params_parts p V) as (_ & _ & VS & _).
  unfold validate_sampling in VS. apply and_then_ok in VS. destruct VS as [VR VS]. apply gt0_d_F in VR. destruct VR as [R1 R2].
  cbn [dltb ieee] in DL. apply (ltb_false_R 53 1024) in DL; [|assumption|assumption].
  pose proof (minus_nonneg 53 1024 _ _ _ _ FB FA DL) as N1.
  pose proof (d2f_nonneg _ N1) as N2. pose proof (f2d_nonneg _ N2) as N3.
  assert (RP : pos 53 1024 (sp_rate (p_sampling p))).
  { destruct (sp_rate (p_sampling p)) as [s|s| |s m e H]; try discriminate R1; exact R2. }
  pose proof (mult_nonneg 53 1024 _ _ _ _ N3 (pos_nonneg _ _ _ RP) (or_intror RP) (or_introl R1)) as N4.
  pose proof (ceil_nonneg 53 1024 _ _ N4) as N5.
  destruct (min_to_int _ N5) as [z Z]. cbn [dsub d2f f2d dmul dceil dtoint ieee]. rewrite Z. cbn [to_int].
  destruct (absolute_angle_to _ _) as [ang|] eqn:AN; [|discriminate].
  assert (K : forall n, noub (if Z.ltb (sp_max_outputs (p_sampling p)) n then Ret (IErr (InvalidArgument msg_too_far)) else Ret (IOk n)))
    by (intros n; destruct (Z.ltb _ n); discriminate).
  destruct (dltb d0 (sp_max_angle (p_sampling p))) eqn:MA; [|apply K].
  apply angle_nonneg in AN; [|exact HA].
  assert (AF : is_finite (sp_max_angle (p_sampling p) : float64) = true /\ 0 < B2R (sp_max_angle (p_sampling p) : float64)).
  { apply and_then_ok in VS. destruct VS as [_ VS]. apply and_then_ok in VS. destruct VS as [_ VS].
    destruct (Z.ltb _ _); [discriminate VS|]. apply and_then_ok in VS. destruct VS as [_ VS].
    destruct (negb (deqb (sp_max_angle (p_sampling p)) (dofZ (-1)))) eqn:NE.
    - apply and_then_ok in VS. destruct VS as [VS _]. apply gt0_d_F in VS. exact VS.
    - exfalso. apply negb_false_iff in NE. cbn [deqb dofZ ieee] in NE. cbn [dltb ieee] in MA. rewrite d0_eq in MA.
      set (v := sp_max_angle (p_sampling p)) in *. destruct (ofZ_64 (-1)) as [O1 O2]; [reflexivity|].
      set (o := binary_normalize 53 1024 _ _ mode_NE (-1) 0 false) in *.
      destruct v as [s|s| |s m e H].
      + destruct s; discriminate MA.
      + destruct s; [discriminate MA|]. vm_compute in NE. discriminate NE.
      + discriminate MA.
      + apply (eqb_R 53 1024) in NE; [|reflexivity|exact O1]. apply (ltb_R 53 1024 (B754_zero false)) in MA; [|reflexivity|reflexivity].
        rewrite NE, O2 in MA. cbn in MA. lra. }
  pose proof (div_nonneg 53 1024 _ _ _ _ (f2d_nonneg _ AN) (proj1 AF) (proj2 AF)) as N6.
  pose proof (ceil_nonneg 53 1024 _ _ N6) as N7. destruct (min_to_int _ N7) as [z2 Z2].
  cbn [ddiv f2d dceil dtoint ieee]. rewrite Z2. cbn [to_int]. apply K.
Qed.

Lemma timeout_noub : forall (p : @StrokeModelParams AI) i, @validate_params AI p = OkStatus -> wp_enabled (p_wobble p) = true ->
  @validate_input AI i = OkStatus -> @dltb AI (i_time i) (@dsub AI (i_time i) (wp_timeout (p_wobble p))) = false.
Proof.
  intros p i V W VI. apply input_F in VI. destruct VI as (_ & _ & FT).
  destruct (validate_params_parts p V) as (VW & _). unfold validate_wobble in VW. rewrite W in VW. cbn [negb] in VW.
  apply and_then_ok in VW. destruct VW as [VW _]. apply ge0_d_F in VW. destruct VW as [F1 P1].
  cbn [dltb dsub ieee]. set (t := i_time i) in *. set (d := wp_timeout (p_wobble p)) in *.
  pose proof (Bminus_correct 53 1024 _ _ mode_NE t d FT F1) as K.
  destruct (Rlt_bool_spec (Rabs (round radix2 (SpecFloat.fexp 53 1024) (round_mode mode_NE) (B2R t - B2R d))) (bpow radix2 1024)) as [L|L].
  - destruct K as (K1 & K2 & _). apply (ltb_false_R 53 1024); [exact FT|exact K2|]. rewrite K1.
    change (r64 (B2R t - B2R d) <= B2R t). apply rnd_le_fmt; [reflexivity|apply fmt_B2R|lra].
  - destruct K as (K & KS). rewrite overflow_NE in K. apply B2SF_inf in K. rewrite K.
    destruct (Bsign t) eqn:ST; [destruct t as [s|s| |s m e H]; try discriminate FT; reflexivity|]. exfalso.
    assert (Q : 0 <= B2R t).
    { destruct t as [s|s| |s m e H]; try discriminate FT; [apply Rle_refl|]. apply B2R_finite_ge. exact ST. }
    assert (S : small64 (B2R t - B2R d)).
    { destruct (Rle_lt_dec (B2R d) (B2R t)) as [C|C].
      - apply small_bound with (x := t). reflexivity. rewrite !Rabs_pos_eq by lra. lra.
      - apply small_bound with (x := d). reflexivity. rewrite Rabs_minus_sym. rewrite !Rabs_pos_eq by lra. lra. }
    unfold small, rnd in S. change (round_mode mode_NE) with ZnearestE in L. lra.
Qed.
End Safe.

(** ** C45 *)
(** No Reset to Kalman prediction, or no Predict at all. *)
Definition no_kalman_prediction {A : Arith} (hist : list call) : Prop :=
  Forall (fun c => match c with CReset p => ~ wants_kalman p | _ => True end) hist \/ no_call is_predict hist.

Theorem C45_no_undefined_behaviour : forall acosf (A := ieee acosf) fuel hist,
  acosf_sound acosf ->
  (Z.of_nat (List.length hist) <= INT_MAX)%Z ->
  Forall (fun c => match c with CReset p => (sp_max_outputs (p_sampling p) < INT_MAX)%Z | _ => True end) hist ->
  no_kalman_prediction hist ->
  forall k, answers fuel [] hist <> UB k.
Proof.
  intros acosf A fuel hist HA HL HO HK. subst A. unfold answers. cbn [run obind]. apply noub_bind; [|intros [m rs] _; discriminate].
  destruct HK as [HK|HK].
  - apply (run_noub fuel true (steps_noub acosf HA) (timeout_noub acosf) hist 0); [apply safe0| |lia].
    rewrite Forall_forall in *. intros c IC. specialize (HO c IC). specialize (HK c IC).
    destruct c; cbn; auto.
  - apply (run_noub fuel false (steps_noub acosf HA) (timeout_noub acosf) hist 0); [apply safe0| |lia].
    unfold no_call in HK. rewrite forallb_forall in HK. rewrite Forall_forall in *. intros c IC.
    specialize (HO c IC). specialize (HK c IC). destruct c; cbn in *; auto; try discriminate. split; [exact HO|discriminate].
Qed.

(** Kalman prediction included: the first call with undefined behaviour, if any, is a
    Predict during a stroke, after a Reset to Kalman prediction, and what is undefined
    is a conversion to int (the number of predicted points). *)
Theorem C45_only_kalman_conversion : forall acosf (A := ieee acosf) fuel hist k,
  acosf_sound acosf ->
  (Z.of_nat (List.length hist) <= INT_MAX)%Z ->
  Forall (fun c => match c with CReset p => (sp_max_outputs (p_sampling p) < INT_MAX)%Z | _ => True end) hist ->
  answers fuel [] hist = UB k ->
  k = UB_float_to_int /\
  exists h1 rs h2 s p kp, hist = h1 ++ CPredict rs :: h2 /\ after fuel h1 s /\ in_stroke s = true /\
    In (CReset p) h1 /\ p_prediction p = PredKalman kp /\ answers fuel h1 [CPredict rs] = UB UB_float_to_int.
Proof.
  intros acosf A fuel hist k HA HL HO AN. subst A. unfold answers in AN. cbn [run obind] in AN.
  destruct (run fuel modeler0 hist) as [[m rs]|k'|] eqn:R; cbn [obind] in AN; [discriminate AN|injection AN as ->|discriminate AN].
  destruct (run_ub fuel false (steps_noub acosf HA) (timeout_noub acosf) hist 0 modeler0 k (safe0 false)) as (h1 & rs & h2 & m1 & rs1 & n1 & EH & R1 & S1 & P1).
  { eapply Forall_impl; [|exact HO]. intros [] H; try exact Logic.I. split; [exact H|discriminate]. }
  { lia. }
  { exact R. }
  destruct (predict_ub _ _ _ _ P1) as [ML ->]. split; [reflexivity|].
  assert (TR : tracks (prun pstate0 h1 rs1) m1) by (eapply tracks_run; [exact tracks0|exact R1]).
  assert (AU : answers fuel h1 [CPredict rs] = UB UB_float_to_int).
  { unfold answers. rewrite R1. cbn [obind run step]. rewrite P1. reflexivity. }
  destruct (Exists_dec (fun c => match c with CReset p => wants_kalman p | _ => False end) h1) as [EX|NE].
  { intros [] ; try (right; intros []). unfold wants_kalman. destruct (p_prediction p); auto. }
  - apply Exists_exists in EX. destruct EX as ([p| | | | |] & IN & W); try contradiction W. unfold wants_kalman in W.
    destruct (p_prediction p) as [|kp|] eqn:EP; try contradiction W.
    exists h1, rs, h2, (prun pstate0 h1 rs1), p, kp. split; [exact EH|]. split; [exists m1, rs1; auto|]. split; [|auto].
    unfold in_stroke. destruct TR as (_ & T2 & _). rewrite T2. destruct (m_last m1); [reflexivity|congruence].
  - exfalso. assert (N : noub (run fuel modeler0 (h1 ++ [CPredict rs]))).
    { apply (run_noub fuel true (steps_noub acosf HA) (timeout_noub acosf) _ 0); [apply safe0| |].
      - apply Forall_app. split; [|repeat constructor]. subst hist. apply Forall_app in HO. destruct HO as [HO _].
        rewrite Forall_forall in *. intros c IC. specialize (HO c IC). destruct c; try exact Logic.I; [|reflexivity]. split; [exact HO|].
        intros _ W. apply NE. apply Exists_exists. exists (CReset p). auto.
      - subst hist. rewrite app_length in *. cbn [List.length] in *. lia. }
    apply (N UB_float_to_int). rewrite run_app, R1. cbn [obind run step]. rewrite P1. reflexivity.
Qed.
