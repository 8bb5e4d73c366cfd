(** * Angle normalisation and interpolation in IEEE arithmetic. *)
From Coq Require Import ZArith Bool Reals Lra Lia Psatz.
From Flocq Require Import Core.Core IEEE754.BinarySingleNaN.
From Verif Require Export Flt.
From Verif Require Import Arith Types Utils Ieee.
Open Scope R_scope.

Section Angle.
Variable acosf : float32 -> float32.
Notation AI := (ieee acosf).

(** 2 * M_PI as a real number; the largest float below it; the least float above it. *)
Definition T2pi : R := 884279719003555 / 140737488355328.
Definition L2pi : R := 13176794 / 2097152.
Definition U2pi : R := 13176795 / 2097152.

Lemma turn_order : 6.28 < L2pi < T2pi /\ T2pi < U2pi < 6.29.
Proof. unfold L2pi, T2pi, U2pi. lra. Qed.

Lemma pi_fin : is_finite b_pi = true /\ B2R b_pi = T2pi / 2.
Proof.
  unfold b_pi. assert (E : F2R (Float radix2 884279719003555 (-48)) = T2pi / 2).
  { unfold F2R, T2pi. cbn [Fnum Fexp]. change (bpow radix2 (-48)) with (/ 281474976710656). lra. }
  destruct (normalize_fin 53 1024 _ _ 884279719003555 (-48) false) as [K1 K2].
  - rewrite E. apply small_le64. rewrite Rabs_pos_eq; [|pose proof turn_order; lra].
    apply Rle_trans with 4; [pose proof turn_order; lra|apply IZR_le; lia].
  - split; [exact K1|]. rewrite K2, E. apply rnd_id. rewrite <- E. unfold F2R. cbn [Fnum Fexp]. apply fmt_FLT; reflexivity || lia.
Qed.

Lemma twoPi_fin : is_finite (@twoPi AI) = true /\ B2R (@twoPi AI) = T2pi.
Proof.
  unfold twoPi. cbn [dmul dofZ kPi ieee]. destruct pi_fin as [FP EP]. destruct (ofZ_64 2) as [F2 E2]; [reflexivity|].
  set (two := binary_normalize 53 1024 _ _ mode_NE 2 0 false) in *.
  assert (EV : B2R two * B2R b_pi = T2pi) by (rewrite E2, EP; lra).
  destruct (mult_fin 53 1024 _ _ two b_pi F2 FP) as [F E].
  - rewrite EV. apply small_le64. rewrite Rabs_pos_eq; [|pose proof turn_order; lra].
    apply Rle_trans with 7; [pose proof turn_order; lra|apply IZR_le; lia].
  - split; [exact F|]. rewrite E, EV. apply rnd_id.
    replace T2pi with (IZR 884279719003555 * bpow radix2 (-47)).
    + apply fmt_FLT; lia.
    + change (bpow radix2 (-47)) with (/ 140737488355328). unfold T2pi. lra.
Qed.

Lemma fmt_L : fmt32 L2pi.
Proof.
  replace L2pi with (IZR 13176794 * bpow radix2 (-21)); [apply fmt_FLT; lia|].
  change (bpow radix2 (-21)) with (/ 2097152). unfold L2pi. lra.
Qed.
Lemma fmt_U : fmt32 U2pi.
Proof.
  replace U2pi with (IZR 13176795 * bpow radix2 (-21)); [apply fmt_FLT; lia|].
  change (bpow radix2 (-21)) with (/ 2097152). unfold U2pi. lra.
Qed.

(** No float lies between the two. *)
Lemma fmt_gap : forall x, fmt32 x -> x < U2pi -> x <= L2pi.
Proof.
  intros x F H. destruct (Rle_lt_dec x L2pi) as [K|K]; [exact K|]. exfalso.
  assert (S : succ radix2 (SpecFloat.fexp 24 128) L2pi <= x).
  { apply succ_le_lt; [apply fexp_correct; reflexivity|apply fmt_L|exact F|exact K]. }
  assert (E : succ radix2 (SpecFloat.fexp 24 128) L2pi = U2pi).
  { rewrite succ_eq_pos by (pose proof turn_order; lra).
    assert (M : mag radix2 L2pi = 3%Z :> Z).
    { apply mag_unique_pos. cbn. unfold L2pi. lra. }
    rewrite ulp_neq_0 by (pose proof turn_order; lra). unfold cexp. rewrite M.
    unfold SpecFloat.fexp, SpecFloat.emin. cbn. unfold L2pi, U2pi. lra. }
  rewrite E in S. lra.
Qed.

(** A normalised angle: in [0, 2 pi). *)
Definition in_turn (x : float32) : Prop := is_finite x = true /\ 0 <= B2R x <= L2pi.
(** An acceptable input angle: in [0, (float)(2 pi)]. *)
Definition in_turn_closed (x : float32) : Prop := is_finite x = true /\ 0 <= B2R x <= U2pi.

Lemma in_turn_lt : forall x, in_turn x -> B2R x < 2 * B2R b_pi.
Proof. intros x (F & H). destruct pi_fin as [_ ->]. pose proof turn_order. lra. Qed.

(** Comparison with 2 pi. *)
Lemma gt_turn : forall x : float32, is_finite x = true ->
  (@dltb AI (@twoPi AI) (@f2d AI x) = true <-> U2pi <= B2R x).
Proof.
  intros x F. cbn [dltb f2d ieee]. destruct (f2d_fin x F) as [F1 E1]. destruct twoPi_fin as [FT ET].
  rewrite (ltb_R 53 1024 _ _ FT F1). rewrite ET, E1. split.
  - intros H. destruct (Rle_lt_dec U2pi (B2R x)) as [K|K]; [exact K|].
    apply fmt_gap in K; [|apply fmt_B2R]. pose proof turn_order. lra.
  - intros H. pose proof turn_order. lra.
Qed.
Lemma not_gt_turn : forall x : float32, is_finite x = true ->
  (@dltb AI (@twoPi AI) (@f2d AI x) = false <-> B2R x <= L2pi).
Proof.
  intros x F. pose proof (gt_turn x F) as K. pose proof turn_order as O.
  destruct (@dltb AI (@twoPi AI) (@f2d AI x)); split; intros H; try discriminate; try reflexivity.
  - exfalso. destruct K as [K _]. specialize (K eq_refl). lra.
  - destruct (Rle_lt_dec (B2R x) L2pi) as [C|C]; [exact C|]. exfalso.
    destruct K as [_ K]. assert (U2pi <= B2R x); [|discriminate (K H0)].
    destruct (Rle_lt_dec U2pi (B2R x)) as [D|D]; [exact D|]. apply fmt_gap in D; [lra|apply fmt_B2R].
Qed.

(** One turn up or down. *)
Lemma turn_up : forall x : float32, is_finite x = true -> Rabs (B2R x) <= IZR (2 ^ 120) ->
  is_finite (@d2f AI (@dadd AI (@f2d AI x) (@twoPi AI))) = true /\
  B2R (@d2f AI (@dadd AI (@f2d AI x) (@twoPi AI))) = r32 (r64 (B2R x + T2pi)).
Proof.
  intros x F B. cbn [d2f dadd f2d ieee]. destruct (f2d_fin x F) as [F1 E1]. destruct twoPi_fin as [FT ET].
  assert (BB : Rabs (B2R x + T2pi) <= IZR (2 ^ 121)).
  { eapply Rle_trans; [apply Rabs_triang|]. rewrite (Rabs_pos_eq T2pi) by (pose proof turn_order; lra).
    replace (IZR (2 ^ 121)) with (IZR (2 ^ 120) + IZR (2 ^ 120)) by (rewrite <- plus_IZR; reflexivity).
    assert (7 <= IZR (2 ^ 120)) by (apply IZR_le; lia). pose proof turn_order. lra. }
  destruct (plus_fin 53 1024 _ _ (b32_to_b64 x) (@twoPi AI) F1 FT) as [F2 E2].
  { rewrite E1, ET. apply small_le64. eapply Rle_trans; [exact BB|]. apply IZR_le. lia. }
  rewrite E1, ET in E2. destruct (d2f_fin _ F2) as [F3 E3].
  { rewrite E2. apply small_le32. eapply Rle_trans; [|apply IZR_le; apply (Z.pow_le_mono_r 2 121 127); lia].
    replace (IZR (2 ^ 121)) with (bpow radix2 121) in * by (rewrite <- (IZR_Zpower radix2) by lia; reflexivity).
    apply rnd_abs_le; [reflexivity|apply fmt_bpow; [reflexivity|lia]|exact BB]. }
  split; [exact F3|]. rewrite E3, E2. reflexivity.
Qed.
Lemma turn_down : forall x : float32, is_finite x = true -> Rabs (B2R x) <= IZR (2 ^ 120) ->
  is_finite (@d2f AI (@dsub AI (@f2d AI x) (@twoPi AI))) = true /\
  B2R (@d2f AI (@dsub AI (@f2d AI x) (@twoPi AI))) = r32 (r64 (B2R x - T2pi)).
Proof.
  intros x F B. cbn [d2f dsub f2d ieee]. destruct (f2d_fin x F) as [F1 E1]. destruct twoPi_fin as [FT ET].
  assert (BB : Rabs (B2R x - T2pi) <= IZR (2 ^ 121)).
  { eapply Rle_trans; [apply Rabs_triang|]. rewrite Rabs_Ropp, (Rabs_pos_eq T2pi) by (pose proof turn_order; lra).
    replace (IZR (2 ^ 121)) with (IZR (2 ^ 120) + IZR (2 ^ 120)) by (rewrite <- plus_IZR; reflexivity).
    assert (7 <= IZR (2 ^ 120)) by (apply IZR_le; lia). pose proof turn_order. lra. }
  destruct (minus_fin 53 1024 _ _ (b32_to_b64 x) (@twoPi AI) F1 FT) as [F2 E2].
  { rewrite E1, ET. apply small_le64. eapply Rle_trans; [exact BB|]. apply IZR_le. lia. }
  rewrite E1, ET in E2. destruct (d2f_fin _ F2) as [F3 E3].
  { rewrite E2. apply small_le32. eapply Rle_trans; [|apply IZR_le; apply (Z.pow_le_mono_r 2 121 127); lia].
    replace (IZR (2 ^ 121)) with (bpow radix2 121) in * by (rewrite <- (IZR_Zpower radix2) by lia; reflexivity).
    apply rnd_abs_le; [reflexivity|apply fmt_bpow; [reflexivity|lia]|exact BB]. }
  split; [exact F3|]. rewrite E3, E2. reflexivity.
Qed.

(** ** What normalisation returns *)
Lemma d2f_not_nan : forall x : float64, is_nan x = false -> is_nan (b64_to_b32 x) = false.
Proof.
  intros x N. destruct (is_finite x) eqn:F.
  - destruct (Rlt_le_dec (Rabs (r32 (B2R x))) (bpow radix2 128)) as [S|S].
    + destruct (d2f_fin x F S) as [K _]. destruct (b64_to_b32 x); try discriminate K; reflexivity.
    + rewrite d2f_over; [reflexivity|exact F|unfold small; lra].
  - destruct x; try discriminate F; try discriminate N; reflexivity.
Qed.

Lemma plus_not_nan : forall x y : float64, is_nan x = false -> is_finite y = true -> is_nan (Bplus mode_NE x y) = false.
Proof.
  intros x y N F. destruct (is_finite x) eqn:FX.
  - pose proof (Bplus_correct 53 1024 _ _ mode_NE x y FX F) as K. destruct (Rlt_bool _ _).
    + destruct K as (_ & K & _). destruct (Bplus mode_NE x y); try discriminate K; reflexivity.
    + destruct K as (K & _). rewrite overflow_NE in K. apply B2SF_inf in K. rewrite K. reflexivity.
  - destruct x; try discriminate FX; try discriminate N. destruct y; try discriminate F; reflexivity.
Qed.

Lemma norm_up_ret : forall fuel (a b : float32), @norm_up AI fuel a = Ret b ->
  @fltb AI b (@f0 AI) = false /\ (is_nan a = false -> is_nan b = false).
Proof.
  induction fuel as [|fuel IH]; intros a b H; cbn [norm_up] in H; destruct (@fltb AI a (@f0 AI)) eqn:L;
    try discriminate H; try (inversion H; subst; auto; fail).
  apply IH in H. destruct H as [H1 H2]. split; [exact H1|]. intros N. apply H2.
  cbn [d2f dadd f2d ieee]. apply d2f_not_nan. destruct twoPi_fin as [FT _].
  apply plus_not_nan; [rewrite f2d_nan; exact N|exact FT].
Qed.

Lemma norm_down_ret : forall fuel (a b : float32), @norm_down AI fuel a = Ret b ->
  (is_nan a = true -> b = a) /\ (nonneg32 a -> in_turn b).
Proof.
  induction fuel as [|fuel IH]; intros a b H; cbn [norm_down] in H;
    destruct (@dltb AI (@twoPi AI) (@f2d AI a)) eqn:L; try discriminate H.
  1,3: inversion H; subst b; split; [auto|]; intros N;
    (assert (F : is_finite a = true);
     [destruct a as [s|s| |s m e E]; try reflexivity; [|contradiction N]; cbn in N; subst s; exfalso; revert L;
      cbn [dltb f2d ieee b32_to_b64]; destruct twoPi_fin as [FT _]; destruct (@twoPi AI) as [| | |[] ? ? ?]; try discriminate FT; discriminate
     |]; split; [exact F|]; apply not_gt_turn in L; [|exact F]; split; [|exact L]; destruct a; try discriminate F; exact N).
  apply IH in H. destruct H as [_ H2]. split.
  - intros N. destruct a; try discriminate N. cbn [f2d ieee b32_to_b64 dltb] in L. rewrite ltb_nan_r in L. discriminate L.
  - intros N. apply H2. cbn [d2f dsub f2d ieee]. apply d2f_nonneg. destruct twoPi_fin as [FT ET].
    destruct (is_finite a) eqn:F.
    + apply gt_turn in L; [|exact F]. destruct (f2d_fin a F) as [F1 E1].
      apply minus_nonneg; [exact F1|exact FT|]. rewrite ET, E1. pose proof turn_order. lra.
    + destruct a as [s|s| |s m e E]; try discriminate F; [|contradiction N]. cbn in N. subst s.
      cbn [b32_to_b64]. destruct (@twoPi AI) as [|[]| |]; try discriminate FT; reflexivity.
Qed.

Lemma normalize_ret : forall fuel (a b : float32), @normalize_angle AI fuel a = Ret b ->
  (is_nan b = true \/ in_turn b) /\ (is_nan a = false -> in_turn b).
Proof.
  intros fuel a b H. unfold normalize_angle in H. destruct (@norm_up AI fuel a) as [c| |] eqn:U; try discriminate H.
  cbn [obind] in H. apply norm_up_ret in U. destruct U as [U1 U2]. apply norm_down_ret in H. destruct H as [D1 D2].
  destruct (is_nan c) eqn:N.
  - split; [left; rewrite (D1 eq_refl); exact N|]. intros K. discriminate (U2 K).
  - assert (NN : nonneg32 c) by (apply ltb0_false; assumption). split; auto.
Qed.

(** ** Termination of normalisation *)
Lemma norm_up_stop : forall fuel (a : float32), is_nan a = true \/ nonneg32 a -> @norm_up AI fuel a = Ret a.
Proof.
  intros fuel a H. assert (L : @fltb AI a (@f0 AI) = false).
  { destruct H as [H|H]; [destruct a; try discriminate H; reflexivity|].
    apply ltb0_false; [apply (nonneg_not_nan 24 128)|]; exact H. }
  destruct fuel; cbn [norm_up]; rewrite L; reflexivity.
Qed.
Lemma norm_down_stop : forall fuel (a : float32), is_nan a = true \/ (is_finite a = true /\ B2R a <= L2pi) ->
  @norm_down AI fuel a = Ret a.
Proof.
  intros fuel a H. assert (L : @dltb AI (@twoPi AI) (@f2d AI a) = false).
  { destruct H as [H|[F H]]; [destruct a; try discriminate H; apply ltb_nan_r|]. apply not_gt_turn; assumption. }
  destruct fuel; cbn [norm_down]; rewrite L; reflexivity.
Qed.

Lemma rnd_le_int : forall x z, (Z.abs z < 2 ^ 24)%Z -> x <= IZR z -> r32 (r64 x) <= IZR z.
Proof.
  intros x z Hz H. apply rnd_le_fmt; [reflexivity|apply fmt_IZR; [lia|exact Hz]|].
  apply rnd_le_fmt; [reflexivity|apply fmt_IZR; [lia|lia]|exact H].
Qed.
Lemma rnd_ge_int : forall x z, (Z.abs z < 2 ^ 24)%Z -> IZR z <= x -> IZR z <= r32 (r64 x).
Proof.
  intros x z Hz H. apply rnd_ge_fmt; [reflexivity|apply fmt_IZR; [lia|exact Hz]|].
  apply rnd_ge_fmt; [reflexivity|apply fmt_IZR; [lia|lia]|exact H].
Qed.

Lemma small_120 : forall x z, (Z.abs z <= 2 ^ 120)%Z -> Rabs x <= IZR z -> Rabs x <= IZR (2 ^ 120).
Proof. intros x z Hz H. eapply Rle_trans; [exact H|]. apply IZR_le. lia. Qed.

(** Values in [-5, 11] need at most one turn each way. *)
Lemma normalize_stop : forall fuel (a : float32),
  is_nan a = true \/ (is_finite a = true /\ -5 <= B2R a <= 11) ->
  exists b, @normalize_angle AI (S fuel) a = Ret b.
Proof.
  intros fuel a H. unfold normalize_angle. pose proof turn_order as O.
  destruct H as [N|(F & B)].
  - rewrite norm_up_stop by auto. cbn [obind]. rewrite norm_down_stop by auto. eauto.
  - assert (DN : forall c : float32, is_finite c = true -> 0 <= B2R c <= 11 -> exists b, @norm_down AI (S fuel) c = Ret b).
    { intros c Fc Bc. cbn [norm_down]. destruct (@dltb AI (@twoPi AI) (@f2d AI c)) eqn:L; [|eauto].
      destruct (turn_down c Fc) as [F1 E1].
      { apply small_120 with 11%Z; [lia|]. rewrite Rabs_pos_eq; lra. }
      rewrite norm_down_stop; [eauto|]. right. split; [exact F1|]. rewrite E1.
      eapply Rle_trans; [apply (rnd_le_int _ 5); [reflexivity|lra]|]. lra. }
    cbn [norm_up]. destruct (@fltb AI a (@f0 AI)) eqn:L.
    + cbn [fltb ieee] in L. rewrite f0_eq in L. apply ltb_R in L; [|exact F|reflexivity]. cbn in L.
      destruct (turn_up a F) as [F1 E1].
      { apply small_120 with 5%Z; [lia|]. apply Rabs_le. lra. }
      assert (V1 : 1 <= B2R (@d2f AI (@dadd AI (@f2d AI a) (@twoPi AI)))).
      { rewrite E1. apply (rnd_ge_int _ 1); [reflexivity|lra]. }
      assert (V2 : B2R (@d2f AI (@dadd AI (@f2d AI a) (@twoPi AI))) <= 7).
      { rewrite E1. apply (rnd_le_int _ 7); [reflexivity|lra]. }
      rewrite norm_up_stop; [|right; apply nonneg_fin; [exact F1|lra]]. cbn [obind].
      apply DN; [exact F1|lra].
    + cbn [obind]. cbn [fltb ieee] in L. rewrite f0_eq in L. apply ltb_false_R in L; [|exact F|reflexivity]. cbn in L.
      apply DN; [exact F|lra].
Qed.

(** ** Interpolation of angles *)
Lemma error_16 : forall x, Rabs x <= 16 -> Rabs (r32 x - x) <= / 1048576.
Proof.
  intros x H. eapply Rle_trans; [apply error_le_half_ulp; [apply fexp_correct; reflexivity]|].
  assert (U : ulp radix2 (SpecFloat.fexp 24 128) x <= bpow radix2 (-19)).
  { destruct (Req_dec x 0) as [Z|Z].
    - subst x. change (SpecFloat.fexp 24 128) with (FLT_exp (-149) 24). rewrite ulp_FLT_0; [|reflexivity]. apply bpow_le. lia.
    - rewrite ulp_neq_0 by exact Z. apply bpow_le. unfold cexp, SpecFloat.fexp, SpecFloat.emin.
      assert (mag radix2 x <= 5)%Z.
      { apply mag_le_bpow; [exact Z|]. cbn. lra. }
      lia. }
  change (bpow radix2 (-19)) with (/ 524288) in U. lra.
Qed.

Lemma interp_bound : forall (s e a : float32), is_finite s = true -> is_finite e = true -> is_nan a = false ->
  0 <= B2R s <= 7 -> -4 <= B2R e <= 10 ->
  is_finite (@interp_f AI s e a) = true /\ -5 <= B2R (@interp_f AI s e a) <= 11.
Proof.
  intros s e a Fs Fe Na Bs Be. destruct (interp_fin acosf s e a 16 Fs Fe Na) as [F E].
  - apply Rabs_le. lra.
  - apply Rabs_le. lra.
  - apply IZR_le. lia.
  - split; [exact F|]. rewrite E. pose proof (clamp_unit acosf a Na) as (_ & C1 & C2).
    set (c := B2R (@clamp01 AI a)) in *.
    pose proof (error_16 (B2R e - B2R s)) as R1. rewrite Rabs_le_inv in * || idtac.
    assert (A1 : Rabs (B2R e - B2R s) <= 16) by (apply Rabs_le; lra). specialize (R1 A1). apply Rabs_le_inv in R1.
    set (d := r32 (B2R e - B2R s)) in *.
    assert (A2 : Rabs (d * c) <= 16) by (apply Rabs_le; nra).
    pose proof (error_16 (d * c) A2) as R2. apply Rabs_le_inv in R2. set (q := r32 (d * c)) in *.
    assert (A3 : Rabs (B2R s + q) <= 16) by (apply Rabs_le; nra).
    pose proof (error_16 (B2R s + q) A3) as R3. apply Rabs_le_inv in R3.
    assert (DC : -4.1 - B2R s <= d * c <= 10.1 - B2R s) by nra.
    lra.
Qed.

Lemma adjust_bound : forall (s e : float32), in_turn s -> in_turn e ->
  let delta := @fsub AI e s in
  let e' := if @dltb AI (@f2d AI delta) (@dneg AI (@kPi AI)) then @d2f AI (@dadd AI (@f2d AI e) (@twoPi AI))
            else if @dltb AI (@kPi AI) (@f2d AI delta) then @d2f AI (@dsub AI (@f2d AI e) (@twoPi AI))
            else e in
  is_finite e' = true /\ -4 <= B2R e' <= 10.
Proof.
  intros s e (Fs & Bs) (Fe & Be). pose proof turn_order as O. cbv zeta.
  assert (AB : Rabs (B2R e) <= IZR (2 ^ 120)) by (apply small_120 with 7%Z; [lia|]; apply Rabs_le; lra).
  cbn [dltb f2d dneg kPi fsub ieee].
  assert (DS : Rabs (B2R e - B2R s) <= 7) by (apply Rabs_le; lra).
  destruct (minus_fin 24 128 _ _ e s Fe Fs) as [FD ED].
  { apply small_le32. eapply Rle_trans; [exact DS|]. apply IZR_le. lia. }
  destruct (f2d_fin _ FD) as [FD2 ED2]. destruct pi_fin as [FP EP].
  destruct (Bltb (b32_to_b64 (Bminus mode_NE e s)) (Bopp b_pi)) eqn:L1.
  - apply ltb_R in L1; [|exact FD2|rewrite is_finite_Bopp; exact FP]. rewrite B2R_Bopp, EP, ED2, ED in L1.
    assert (D3 : B2R e - B2R s <= -3).
    { destruct (Rle_lt_dec (B2R e - B2R s) (-3)) as [C|C]; [exact C|]. exfalso.
      assert (-3 <= r32 (B2R e - B2R s)) by (apply rnd_ge_fmt; [reflexivity|apply fmt_IZR; lia|lra]). lra. }
    destruct (turn_up e Fe AB) as [F1 E1]. cbn [d2f dadd f2d ieee] in F1, E1 |- *. split; [exact F1|]. rewrite E1. split.
    + apply (rnd_ge_int _ (-4)); [reflexivity|lra].
    + apply (rnd_le_int _ 10); [reflexivity|lra].
  - destruct (Bltb b_pi (b32_to_b64 (Bminus mode_NE e s))) eqn:L2.
    + apply ltb_R in L2; [|exact FP|exact FD2]. rewrite EP, ED2, ED in L2.
      assert (D3 : 3 <= B2R e - B2R s).
      { destruct (Rle_lt_dec 3 (B2R e - B2R s)) as [C|C]; [exact C|]. exfalso.
        assert (r32 (B2R e - B2R s) <= 3) by (apply rnd_le_fmt; [reflexivity|apply fmt_IZR; lia|lra]). lra. }
      destruct (turn_down e Fe AB) as [F1 E1]. cbn [d2f dsub f2d ieee] in F1, E1 |- *. split; [exact F1|]. rewrite E1. split.
      * apply (rnd_ge_int _ (-4)); [reflexivity|lra].
      * apply (rnd_le_int _ 10); [reflexivity|lra].
    + split; [exact Fe|]. lra.
Qed.

Lemma interp_nan : forall s e a : float32, is_nan a = true -> is_nan (@interp_f AI s e a) = true.
Proof.
  intros s e a N. unfold interp_f. pose proof (clamp_nan acosf a N) as C. destruct (@clamp01 AI a); try discriminate C.
  cbn [fadd fmul fsub ieee]. destruct (Bminus mode_NE e s); destruct s; reflexivity.
Qed.
Lemma interp_nan_start : forall s e a : float32, is_nan s = true -> is_nan (@interp_f AI s e a) = true.
Proof.
  intros s e a N. destruct s; try discriminate N. unfold interp_f. cbn [fadd ieee].
  reflexivity.
Qed.
Lemma interp_nan_stop : forall s e a : float32, is_nan e = true -> is_nan (@interp_f AI s e a) = true.
Proof.
  intros s e a N. destruct e; try discriminate N. unfold interp_f. cbn [fadd fmul fsub ieee].
  destruct (@clamp01 AI a); destruct s; reflexivity.
Qed.

Lemma interp_angle_ret : forall fuel (s e a r : float32), @interp_angle AI fuel s e a = Ret r ->
  (is_nan r = true \/ in_turn r) /\
  (is_nan s = false -> is_nan e = false -> is_nan a = false -> in_turn r).
Proof.
  intros fuel s e a r H. unfold interp_angle in H.
  destruct (@normalize_angle AI fuel s) as [s'| |] eqn:NS; try discriminate H. cbn [obind] in H.
  destruct (@normalize_angle AI fuel e) as [e'| |] eqn:NE; try discriminate H. cbn [obind] in H.
  apply normalize_ret in NS, NE. destruct NS as [_ NS], NE as [_ NE].
  apply normalize_ret in H. destruct H as [H1 H2]. split; [exact H1|].
  intros Ns Ne Na. apply H2. specialize (NS Ns). specialize (NE Ne).
  destruct (adjust_bound s' e' NS NE) as [F B]. cbv zeta in F, B.
  destruct NS as [Fs Bs]. pose proof turn_order.
  match goal with |- is_nan (interp_f _ ?x _) = false => destruct (interp_bound s' x a Fs F Na) as [K _]; [lra|exact B|] end.
  destruct (interp_f s' _ a); try discriminate K; reflexivity.
Qed.

(** An angle that is not a number or in [0, 2 pi]. *)
Definition angle_ok (o : float32) : Prop := is_nan o = true \/ in_turn_closed o.

Lemma normalize_ok_stop : forall fuel o, angle_ok o -> exists b, @normalize_angle AI (S fuel) o = Ret b.
Proof.
  intros fuel o H. apply normalize_stop. destruct H as [N|(F & B)]; [left; exact N|right].
  pose proof turn_order. split; [exact F|lra].
Qed.

Lemma nan_after : forall fuel a b, @normalize_angle AI fuel a = Ret b -> is_nan a = true -> is_nan b = true.
Proof.
  intros fuel a b H N. unfold normalize_angle in H. rewrite norm_up_stop in H by auto. cbn [obind] in H.
  rewrite norm_down_stop in H by auto. congruence.
Qed.

Lemma interp_angle_stop : forall fuel (s e a : float32), angle_ok s -> angle_ok e ->
  exists r, @interp_angle AI (S fuel) s e a = Ret r.
Proof.
  intros fuel s e a Hs He. unfold interp_angle.
  destruct (normalize_ok_stop fuel s Hs) as [s' NS]. destruct (normalize_ok_stop fuel e He) as [e' NE].
  rewrite NS, NE. cbn [obind]. apply normalize_stop.
  destruct (is_nan a) eqn:Na; [left; apply interp_nan; exact Na|].
  destruct (is_nan s') eqn:Ns; [left; apply interp_nan_start; exact Ns|].
  destruct (is_nan e') eqn:Ne.
  - left. apply interp_nan_stop. destruct e'; try discriminate Ne.
    assert (Z : @f2d AI (@fsub AI B754_nan s') = B754_nan) by (cbn [fsub f2d ieee]; destruct s'; reflexivity).
    rewrite Z. cbn [dltb ieee]. rewrite ltb_nan_l, ltb_nan_r. reflexivity.
  - right. apply normalize_ret in NS, NE. destruct NS as [[C|NS] _]; [congruence|]. destruct NE as [[C|NE] _]; [congruence|].
    destruct (adjust_bound s' e' NS NE) as [F B]. cbv zeta in F, B.
    destruct NS as [Fs Bs]. pose proof turn_order. apply interp_bound; auto. lra.
Qed.

End Angle.
