(** * Facts about the operations of [ieee]: literals, conversions, clamping,
      interpolation. *)
From Coq Require Import ZArith Bool Reals Lra Lia Psatz.
From Flocq Require Import Core.Core IEEE754.BinarySingleNaN Sterbenz.
From Verif Require Export FloatFacts.
From Verif Require Import Arith Types Utils Ieee.
Open Scope R_scope.

Notation r32 := (rnd 24 128).
Notation r64 := (rnd 53 1024).
Notation fmt32 := (fmt 24 128).
Notation fmt64 := (fmt 53 1024).
Notation small32 := (small 24 128).
Notation small64 := (small 53 1024).
Notation nonneg32 := (nonneg 24 128).
Notation nonneg64 := (nonneg 53 1024).

Lemma fmt_FLT : forall prec emax m e, (Z.abs m < 2 ^ prec)%Z -> (3 - emax - prec <= e)%Z ->
  fmt prec emax (IZR m * bpow radix2 e).
Proof.
  intros prec emax m e H1 H2. unfold fmt.
  change (SpecFloat.fexp prec emax) with (FLT_exp (3 - emax - prec) prec).
  apply generic_format_FLT. exists (Float radix2 m e); [reflexivity|exact H1|exact H2].
Qed.
Lemma fmt_bpow : forall prec emax e, Prec_gt_0 prec -> (3 - emax - prec <= e)%Z -> fmt prec emax (bpow radix2 e).
Proof.
  intros prec emax e P H2. unfold fmt.
  change (SpecFloat.fexp prec emax) with (FLT_exp (3 - emax - prec) prec).
  apply generic_format_FLT_bpow; assumption.
Qed.
Lemma fmt_IZR : forall prec emax z, (3 <= emax + prec)%Z -> (Z.abs z < 2 ^ prec)%Z -> fmt prec emax (IZR z).
Proof.
  intros prec emax z H1 H2. replace (IZR z) with (IZR z * bpow radix2 0) by (cbn; ring).
  apply fmt_FLT; [exact H2|lia].
Qed.
Lemma fmt_32_64 : forall x, fmt32 x -> fmt64 x.
Proof.
  intros x H. unfold fmt in *. eapply generic_inclusion_mag; [|exact H].
  intros _. unfold SpecFloat.fexp, SpecFloat.emin. lia.
Qed.

Lemma bpow_128 : bpow radix2 128 = IZR (2 ^ 128).
Proof. rewrite (IZR_Zpower radix2) by lia. reflexivity. Qed.
Lemma bpow_1024 : bpow radix2 1024 = IZR (2 ^ 1024).
Proof. rewrite (IZR_Zpower radix2) by lia. reflexivity. Qed.

Lemma small_le32 : forall x, Rabs x <= IZR (2 ^ 127) -> small32 x.
Proof.
  intros x H. apply small_fmt_bound with (b := bpow radix2 127); [reflexivity|apply fmt_bpow; [reflexivity|lia]|apply bpow_lt; lia|].
  rewrite <- (IZR_Zpower radix2) by lia. exact H.
Qed.
Lemma small_le64 : forall x, Rabs x <= IZR (2 ^ 1023) -> small64 x.
Proof.
  intros x H. apply small_fmt_bound with (b := bpow radix2 1023); [reflexivity|apply fmt_bpow; [reflexivity|lia]|apply bpow_lt; lia|].
  rewrite <- (IZR_Zpower radix2) by lia. exact H.
Qed.

(** Integers as floats and doubles. *)
Lemma ofZ_32 : forall z, (Z.abs z < 2 ^ 24)%Z ->
  is_finite (binary_normalize 24 128 prec_gt_0_32 prec_lt_emax_32 mode_NE z 0 false) = true /\
  B2R (binary_normalize 24 128 prec_gt_0_32 prec_lt_emax_32 mode_NE z 0 false) = IZR z.
Proof.
  intros z H. assert (E : F2R (Float radix2 z 0) = IZR z) by (unfold F2R; cbn; ring).
  destruct (normalize_fin 24 128 _ _ z 0 false) as [K1 K2].
  - rewrite E. apply small_le32. rewrite <- abs_IZR. apply IZR_le. lia.
  - split; [exact K1|]. rewrite K2, E. apply rnd_id. apply fmt_IZR; [lia|exact H].
Qed.
Lemma ofZ_64 : forall z, (Z.abs z < 2 ^ 53)%Z ->
  is_finite (binary_normalize 53 1024 prec_gt_0_64 prec_lt_emax_64 mode_NE z 0 false) = true /\
  B2R (binary_normalize 53 1024 prec_gt_0_64 prec_lt_emax_64 mode_NE z 0 false) = IZR z.
Proof.
  intros z H. assert (E : F2R (Float radix2 z 0) = IZR z) by (unfold F2R; cbn; ring).
  destruct (normalize_fin 53 1024 _ _ z 0 false) as [K1 K2].
  - rewrite E. apply small_le64. rewrite <- abs_IZR. apply IZR_le. lia.
  - split; [exact K1|]. rewrite K2, E. apply rnd_id. apply fmt_IZR; [lia|exact H].
Qed.

(** float -> double is exact. *)
Lemma f2d_fin : forall x : float32, is_finite x = true ->
  is_finite (b32_to_b64 x) = true /\ B2R (b32_to_b64 x) = B2R x.
Proof.
  intros [s|s| |s m e H] F; try discriminate F; [split; reflexivity|].
  cbn [b32_to_b64].
  set (z := cond_Zopp s (Z.pos m)).
  change (B2R (B754_finite s m e H)) with (F2R (Float radix2 z e)).
  assert (FM : fmt32 (F2R (Float radix2 z e))) by apply (fmt_B2R 24 128 (B754_finite s m e H)).
  assert (SM : Rabs (F2R (Float radix2 z e)) < bpow radix2 128) by apply (B2R_lt_emax 24 128 (B754_finite s m e H)).
  destruct (normalize_fin 53 1024 _ _ z e s) as [K1 K2].
  - unfold small. rewrite rnd_id; [|apply fmt_32_64; exact FM].
    eapply Rlt_trans; [exact SM|]. apply bpow_lt. lia.
  - split; [exact K1|]. rewrite K2. apply rnd_id. apply fmt_32_64. exact FM.
Qed.
Lemma f2d_nan : forall x : float32, is_nan (b32_to_b64 x) = is_nan x.
Proof.
  intros [s|s| |s m e H]; try reflexivity.
  destruct (f2d_fin (B754_finite s m e H) eq_refl) as [K _].
  destruct (b32_to_b64 (B754_finite s m e H)); try discriminate K; reflexivity.
Qed.
Lemma f2d_finite : forall x : float32, is_finite (b32_to_b64 x) = is_finite x.
Proof.
  intros [s|s| |s m e H]; try reflexivity. apply (f2d_fin (B754_finite s m e H) eq_refl).
Qed.
Lemma f2d_nonneg : forall x, nonneg32 x -> nonneg64 (b32_to_b64 x).
Proof.
  intros x N. destruct (is_finite x) eqn:F.
  - destruct (f2d_fin x F) as [K1 K2]. apply nonneg_fin; [exact K1|]. rewrite K2.
    destruct x; try discriminate F; exact N.
  - destruct x as [s|s| |s m e H]; try discriminate F; [|contradiction N]. exact N.
Qed.

(** double -> float. *)
Lemma d2f_fin : forall x : float64, is_finite x = true -> small32 (B2R x) ->
  is_finite (b64_to_b32 x) = true /\ B2R (b64_to_b32 x) = r32 (B2R x).
Proof.
  intros [s|s| |s m e H] F S; try discriminate F.
  - split; [reflexivity|]. cbn. rewrite rnd_0. reflexivity.
  - cbn [b64_to_b32]. apply normalize_fin. exact S.
Qed.
Lemma d2f_over : forall x : float64, is_finite x = true -> ~ small32 (B2R x) ->
  b64_to_b32 x = B754_infinity (Bsign x).
Proof.
  intros [s|s| |s m e H] F S; try discriminate F.
  - exfalso. apply S. cbn. unfold small. rewrite rnd_0, Rabs_R0. apply bpow_gt_0.
  - cbn [b64_to_b32 Bsign].
    pose proof (binary_normalize_correct 24 128 _ _ mode_NE (cond_Zopp s (Z.pos m)) e s) as K. cbv zeta in K.
    rewrite Rlt_bool_false in K.
    + rewrite overflow_NE in K. apply B2SF_inf in K. rewrite K. f_equal.
      destruct s.
      * rewrite Rlt_bool_true; [reflexivity|]. apply F2R_lt_0. reflexivity.
      * rewrite Rlt_bool_false; [reflexivity|]. left. apply F2R_gt_0. reflexivity.
    + apply Rnot_lt_le. exact S.
Qed.
Lemma d2f_nonneg : forall x, nonneg64 x -> nonneg32 (b64_to_b32 x).
Proof.
  intros x N. destruct (is_finite x) eqn:F.
  - assert (P : 0 <= B2R x) by (destruct x; try discriminate F; exact N).
    destruct (Rlt_le_dec (Rabs (r32 (B2R x))) (bpow radix2 128)) as [S|S].
    + destruct (d2f_fin x F S) as [K1 K2]. apply nonneg_fin; [exact K1|]. rewrite K2. apply rnd_ge0; [reflexivity|exact P].
    + rewrite d2f_over; [|exact F|unfold small; lra].
      destruct (nonneg_sign 53 1024 x N) as [[Z _]|[Z _]]; [|exact Z].
      exfalso. rewrite Z, rnd_0, Rabs_R0 in S. pose proof (bpow_gt_0 radix2 128). lra.
  - destruct x as [s|s| |s m e H]; try discriminate F; [exact N|contradiction N].
Qed.

(** ** The interface *)
Section Iface.
Variable acosf : float32 -> float32.
Notation AI := (ieee acosf).

Lemma f0_eq : @f0 AI = B754_zero false.
Proof. reflexivity. Qed.
Lemma d0_eq : @d0 AI = B754_zero false.
Proof. reflexivity. Qed.
Lemma f1_fin : is_finite (@f1 AI) = true /\ B2R (@f1 AI) = 1.
Proof. apply (ofZ_32 1). reflexivity. Qed.
Lemma fm1_fin : is_finite (@fm1 AI) = true /\ B2R (@fm1 AI) = -1.
Proof. apply (ofZ_32 (-1)). reflexivity. Qed.
Lemma f0_fin : is_finite (@f0 AI) = true /\ B2R (@f0 AI) = 0.
Proof. split; reflexivity. Qed.

Lemma fm1_neg : @fltb AI (@fm1 AI) (@f0 AI) = true.
Proof. reflexivity. Qed.

Lemma to_int_some : forall p e (H : Prec_lt_emax p e) (x : binary_float p e) z, b_to_int x = Some z ->
  is_finite x = true /\ z = Ztrunc (B2R x) /\ (INT_MIN <= z <= INT_MAX)%Z.
Proof.
  intros p e H x z K. unfold b_to_int in K. destruct (is_finite x); [|discriminate K].
  destruct (_ && _) eqn:L; [|discriminate K]. inversion K. apply andb_prop in L. destruct L as [L1 L2].
  apply Z.leb_le in L1, L2. split; [reflexivity|]. split; [apply trunc_fin; exact H|auto].
Qed.
Lemma to_int_fits : forall p e (H : Prec_lt_emax p e) (x : binary_float p e),
  is_finite x = true -> IZR INT_MIN <= B2R x <= IZR INT_MAX -> b_to_int x = Some (Ztrunc (B2R x)).
Proof.
  intros p e H x F [L1 L2]. unfold b_to_int. rewrite F. rewrite (trunc_fin p e H).
  replace (INT_MIN <=? Ztrunc (B2R x))%Z with true.
  - replace (Ztrunc (B2R x) <=? INT_MAX)%Z with true; [reflexivity|].
    symmetry. apply Z.leb_le. rewrite <- (Ztrunc_IZR INT_MAX). apply Ztrunc_le. exact L2.
  - symmetry. apply Z.leb_le. rewrite <- (Ztrunc_IZR INT_MIN). apply Ztrunc_le. exact L1.
Qed.

(** Between 0 and 1. *)
Definition unit32 (x : float32) : Prop := is_finite x = true /\ 0 <= B2R x <= 1.

Lemma unit_iff : forall x : float32, unit32 x <-> @fleb AI (@f0 AI) x = true /\ @fleb AI x (@f1 AI) = true.
Proof.
  intros x. destruct f0_fin as [F0 E0], f1_fin as [F1 E1]. split.
  - intros (F & L1 & L2). split; apply leb_R; auto; lra.
  - intros [L1 L2]. cbn [fleb ieee] in L1, L2. apply leb_nonneg in L1.
    assert (F : is_finite x = true) by (eapply le_finite; [exact L1|exact F1|exact L2]).
    split; [exact F|]. apply leb_R in L2; auto. split; [|lra].
    destruct x; try discriminate F; exact L1.
Qed.

Lemma clamp_unit : forall x : float32, is_nan x = false -> unit32 (@clamp01 AI x).
Proof.
  intros x N. destruct f0_fin as [F0 E0], f1_fin as [F1 E1].
  unfold clamp01, std_clamp. cbn [fltb ieee].
  destruct (Bltb x (@f0 AI)) eqn:L0; [split; [exact F0|lra]|].
  destruct (Bltb (@f1 AI) x) eqn:L1; [split; [exact F1|lra]|].
  assert (NN : nonneg32 x) by (apply ltb0_false; assumption).
  assert (F : is_finite x = true).
  { destruct x as [s|s| |s m e H]; try reflexivity; [|discriminate N]. cbn in NN. subst s. discriminate L1. }
  split; [exact F|]. split; [destruct x; try discriminate F; exact NN|].
  apply ltb_false_R in L1; auto. lra.
Qed.
Lemma clamp_nan : forall x : float32, is_nan x = true -> is_nan (@clamp01 AI x) = true.
Proof. intros [s|s| |s m e H] N; try discriminate N. reflexivity. Qed.
Lemma clamp_id : forall x : float32, unit32 x -> @clamp01 AI x = x.
Proof.
  intros x (F & L1 & L2). destruct f0_fin as [F0 E0], f1_fin as [F1 E1]. unfold clamp01, std_clamp. cbn [fltb ieee].
  replace (Bltb x (@f0 AI)) with false by (symmetry; apply ltb_false_R; auto; lra).
  replace (Bltb (@f1 AI) x) with false by (symmetry; apply ltb_false_R; auto; lra). reflexivity.
Qed.

(** Interpolation between finite numbers of moderate size. *)
Lemma interp_fin : forall (s e a : float32) B, is_finite s = true -> is_finite e = true -> is_nan a = false ->
  Rabs (B2R s) <= B -> Rabs (B2R e) <= B -> B <= IZR (2 ^ 124) ->
  is_finite (@interp_f AI s e a) = true /\
  B2R (@interp_f AI s e a) = r32 (B2R s + r32 (r32 (B2R e - B2R s) * B2R (@clamp01 AI a))).
Proof.
  intros s e a B Fs Fe Na Bs Be BB. pose proof (clamp_unit a Na) as (Fc & C1 & C2).
  unfold interp_f. set (c := @clamp01 AI a) in *. cbn [fadd fmul fsub ieee].
  assert (B0 : 0 <= B) by (eapply Rle_trans; [apply Rabs_pos|exact Bs]).
  assert (D0 : Rabs (B2R e - B2R s) <= IZR (2 ^ 125)).
  { eapply Rle_trans; [apply Rabs_triang|]. rewrite Rabs_Ropp.
    replace (IZR (2 ^ 125)) with (IZR (2 ^ 124) + IZR (2 ^ 124)) by (rewrite <- plus_IZR; reflexivity). lra. }
  assert (FB : forall k, (-149 <= k)%Z -> fmt32 (bpow radix2 k)) by (intros; apply fmt_bpow; [reflexivity|lia]).
  assert (P125 : IZR (2 ^ 125) = bpow radix2 125) by (rewrite <- (IZR_Zpower radix2) by lia; reflexivity).
  assert (P126 : bpow radix2 126 = IZR (2 ^ 126)) by (rewrite <- (IZR_Zpower radix2) by lia; reflexivity).
  destruct (minus_fin 24 128 _ _ e s Fe Fs) as [F1 E1].
  { apply small_le32. eapply Rle_trans; [exact D0|]. apply IZR_le. lia. }
  assert (D1 : Rabs (B2R (Bminus mode_NE e s)) <= IZR (2 ^ 125)).
  { rewrite E1. apply rnd_abs_le; [reflexivity|rewrite P125; apply FB; lia|exact D0]. }
  assert (D2 : Rabs (B2R (Bminus mode_NE e s) * B2R c) <= IZR (2 ^ 125)).
  { rewrite Rabs_mult. rewrite (Rabs_pos_eq (B2R c)) by lra. pose proof (Rabs_pos (B2R (Bminus mode_NE e s))). nra. }
  destruct (mult_fin 24 128 _ _ (Bminus mode_NE e s) c F1 Fc) as [F2 E2].
  { apply small_le32. eapply Rle_trans; [exact D2|]. apply IZR_le. lia. }
  assert (D3 : Rabs (B2R (Bmult mode_NE (Bminus mode_NE e s) c)) <= IZR (2 ^ 125)).
  { rewrite E2. apply rnd_abs_le; [reflexivity|rewrite P125; apply FB; lia|exact D2]. }
  destruct (plus_fin 24 128 _ _ s (Bmult mode_NE (Bminus mode_NE e s) c) Fs F2) as [F3 E3].
  { apply small_le32. eapply Rle_trans; [apply Rabs_triang|].
    replace (IZR (2 ^ 127)) with (IZR (2 ^ 125) + IZR (2 ^ 125) + IZR (2 ^ 126)) by (rewrite <- !plus_IZR; reflexivity).
    assert (IZR (2 ^ 124) <= IZR (2 ^ 125)) by (apply IZR_le; lia).
    assert (0 <= IZR (2 ^ 126)) by (apply IZR_le; lia). lra. }
  split; [exact F3|]. rewrite E3, E2, E1. reflexivity.
Qed.

(** Half an ulp of 1 above 1 rounds to 1. *)
Lemma rnd_one : forall x, x < 1 + bpow radix2 (-24) -> r32 x <= 1.
Proof.
  intros x H. unfold rnd. apply round_N_le_midp; [apply fexp_correct; reflexivity| |].
  - apply (fmt_IZR 24 128 1); [lia|reflexivity].
  - assert (SU : succ radix2 (SpecFloat.fexp 24 128) 1 = 1 + bpow radix2 (-23)).
    { rewrite succ_eq_pos by lra. f_equal. change 1 with (bpow radix2 0). rewrite ulp_bpow. reflexivity. }
    rewrite SU. change (bpow radix2 (-24)) with (/ 16777216) in H. change (bpow radix2 (-23)) with (/ 8388608). lra.
Qed.

Lemma error_32 : forall x, Rabs x <= 1 -> Rabs (r32 x - x) <= bpow radix2 (-25).
Proof.
  intros x H. destruct (Req_dec (Rabs x) 1) as [E|E].
  - rewrite rnd_id, Rminus_eq_0, Rabs_R0; [apply bpow_ge_0|].
    destruct (Rcase_abs x) as [C|C].
    + rewrite Rabs_left in E by exact C. replace x with (- (1)) by lra. apply fmt_opp. apply (fmt_IZR 24 128 1); [lia|reflexivity].
    + rewrite Rabs_right in E by exact C. rewrite E. apply (fmt_IZR 24 128 1); [lia|reflexivity].
  - eapply Rle_trans; [apply error_le_half_ulp; [apply fexp_correct; reflexivity]|].
    assert (U : ulp radix2 (SpecFloat.fexp 24 128) x <= bpow radix2 (-24)).
    { destruct (Req_dec x 0) as [Z|Z].
      - subst x. change (SpecFloat.fexp 24 128) with (FLT_exp (-149) 24). rewrite ulp_FLT_0. apply bpow_le. lia. reflexivity.
      - rewrite ulp_neq_0 by exact Z. apply bpow_le. unfold cexp, SpecFloat.fexp, SpecFloat.emin.
        assert (mag radix2 x <= 0)%Z.
        { apply mag_le_bpow; [exact Z|]. cbn. lra. }
        lia. }
    change (bpow radix2 (-25)) with (/ 33554432). change (bpow radix2 (-24)) with (/ 16777216) in U. lra.
Qed.

(** Pressure: no rounding slack. *)
Lemma interp_unit : forall s e a : float32, unit32 s -> unit32 e -> is_nan a = false -> unit32 (@interp_f AI s e a).
Proof.
  intros s e a (Fs & S1 & S2) (Fe & E1 & E2) Na.
  destruct (interp_fin s e a 1 Fs Fe Na) as [F E].
  - rewrite Rabs_pos_eq; lra.
  - rewrite Rabs_pos_eq; lra.
  - apply IZR_le. lia.
  - split; [exact F|]. rewrite E. pose proof (clamp_unit a Na) as (_ & C1 & C2).
    set (c := B2R (@clamp01 AI a)) in *.
    assert (F1 : fmt32 1) by (apply (fmt_IZR 24 128 1); [lia|reflexivity]).
    destruct (Rle_lt_dec (B2R s) (B2R e)) as [L|L].
    + assert (D : 0 <= r32 (B2R e - B2R s)) by (apply rnd_ge0; [reflexivity|lra]).
      assert (P : 0 <= r32 (r32 (B2R e - B2R s) * c)) by (apply rnd_ge0; [reflexivity|apply Rmult_le_pos; assumption]).
      split; [apply rnd_ge0; [reflexivity|lra]|].
      apply rnd_one.
      assert (Q : r32 (r32 (B2R e - B2R s) * c) <= r32 (1 - B2R s)).
      { apply rnd_le_fmt; [reflexivity|apply rnd_fmt; reflexivity|].
        eapply Rle_trans with (r32 (B2R e - B2R s)); [|apply rnd_le; [reflexivity|lra]].
        rewrite <- (Rmult_1_r (r32 (B2R e - B2R s))) at 2. apply Rmult_le_compat_l; assumption. }
      pose proof (error_32 (1 - B2R s)) as ER. rewrite Rabs_pos_eq in ER by lra. specialize (ER ltac:(lra)).
      apply Rabs_le_inv in ER. change (bpow radix2 (-25)) with (/ 33554432) in ER.
      change (bpow radix2 (-24)) with (/ 16777216). lra.
    + assert (D : - B2R s <= r32 (B2R e - B2R s)).
      { apply rnd_ge_fmt; [reflexivity|apply fmt_opp; apply fmt_B2R|lra]. }
      assert (D2 : r32 (B2R e - B2R s) <= 0) by (apply rnd_le0; [reflexivity|lra]).
      assert (P : - B2R s <= r32 (r32 (B2R e - B2R s) * c)).
      { apply rnd_ge_fmt; [reflexivity|apply fmt_opp; apply fmt_B2R|]. nra. }
      assert (P2 : r32 (r32 (B2R e - B2R s) * c) <= 0).
      { apply rnd_le0; [reflexivity|]. nra. }
      split; [apply rnd_ge0; [reflexivity|lra]|]. apply rnd_le_fmt; [reflexivity|exact F1|lra].
Qed.

End Iface.
