(** * C53: Vec2::AbsoluteAngleTo, which the public header offers to clients. *)
From Coq Require Import ZArith Bool List Reals Lra Lia Psatz.
From Flocq Require Import Core.Core IEEE754.BinarySingleNaN.
From Verif Require Export Props_Safe Props_End Stable Filter.
Import ListNotations.
Open Scope R_scope.

(** ** Exact arithmetic: the angle between the vectors, or 0 if one is zero *)
Theorem C53_angle_exact : forall (A := real_arith) (u v : Vec2 (A := real_arith)),
  exists th, absolute_angle_to u v = Some th /\
    (norm u <> 0 -> norm v <> 0 -> is_angle u v th) /\ (norm u = 0 \/ norm v = 0 -> th = 0).
Proof.
  intros A u v. subst A.
  assert (N : forall w : Vec2 (A := real_arith), norm w * norm w = vx w * vx w + vy w * vy w /\ 0 <= norm w).
  { intros w. split; [apply sqrt_sqrt; nra|apply sqrt_pos]. }
  destruct (Req_dec (norm u) 0) as [ZU|NU]; [|destruct (Req_dec (norm v) 0) as [ZV|NV]].
  - exists 0. split; [|split; [contradiction|reflexivity]]. unfold absolute_angle_to, vfinite, fisfinite. rsimp. cbn [negb andb orb].
    unfold magnitude. rsimp. fold (norm u) (norm v). rewrite (proj2 (Reqb_true _ _) ZU). reflexivity.
  - exists 0. split; [|split; [contradiction|reflexivity]]. unfold absolute_angle_to, vfinite, fisfinite. rsimp. cbn [negb andb orb].
    unfold magnitude. rsimp. fold (norm u) (norm v). rewrite (proj2 (Reqb_true _ _) ZV), orb_true_r. reflexivity.
  - set (c := (vx u * vx v + vy u * vy v) / (norm u * norm v)).
    destruct (N u) as [U1 U2]. destruct (N v) as [V1 V2]. assert (P : 0 < norm u * norm v) by (apply Rmult_lt_0_compat; lra).
    assert (C : -1 <= c <= 1).
    { assert (Q : (vx u * vx v + vy u * vy v) * (vx u * vx v + vy u * vy v) <= (norm u * norm v) * (norm u * norm v)).
      { replace (norm u * norm v * (norm u * norm v)) with ((norm u * norm u) * (norm v * norm v)) by ring. rewrite U1, V1.
        pose proof (Rle_0_sqr (vx u * vy v - vy u * vx v)) as SQ. unfold Rsqr in SQ. lra. }
      set (d := vx u * vx v + vy u * vy v) in *. set (n := norm u * norm v) in *. clearbody d n.
      assert (B : - n <= d <= n) by nra. unfold c. split; [apply Rmult_le_reg_r with n|apply Rmult_le_reg_r with n]; try exact P;
        unfold Rdiv; rewrite Rmult_assoc, Rinv_l by lra; lra. }
    assert (AN : is_angle u v (acos c)).
    { split; [apply acos_bound|]. split; [exact NU|]. split; [exact NV|]. rewrite cos_acos by exact C. unfold c. field. split; assumption. }
    exists (acos c). split; [exact (absolute_angle_R _ _ _ AN)|]. split; [intros _ _; exact AN|intros [E|E]; contradiction].
Qed.

Section Vec.
Variable acosf : float32 -> float32.
Let A := ieee acosf.
Local Existing Instance A.

Lemma mult_sym : forall x y : float32, is_finite x = true -> is_finite y = true -> Rabs (B2R x * B2R y) <= 1 -> Bmult mode_NE x y = Bmult mode_NE y x.
Proof.
  intros x y FX FY B. assert (S : small32 (B2R x * B2R y)) by (apply small_le32; eapply Rle_trans; [exact B|apply IZR_le; lia]).
  pose proof (Bmult_correct 24 128 _ _ mode_NE x y) as K1. pose proof (Bmult_correct 24 128 _ _ mode_NE y x) as K2.
  rewrite (Rmult_comm (B2R y)) in K2. unfold small, rnd in S. change (round_mode mode_NE) with ZnearestE in K1, K2. rewrite (Rlt_bool_true _ _ S) in K1, K2.
  rewrite FX, FY in K1, K2. destruct K1 as (K1 & K1' & K1''). destruct K2 as (K2 & K2' & K2''). cbn [andb] in K1', K2'.
  apply B2R_Bsign_inj; try assumption.
  - rewrite K1, K2. reflexivity.
  - rewrite K1'', K2''; [apply xorb_comm| |]; [destruct (Bmult mode_NE y x)|destruct (Bmult mode_NE x y)]; try reflexivity; discriminate.
Qed.

(** *** How close the computed cosine is *)
Definition length32 (v : Vec2) : R := sqrt (B2R (vx v : float32) * B2R (vx v : float32) + B2R (vy v : float32) * B2R (vy v : float32)).
Definition ordinary_vec (v : Vec2) : Prop :=
  is_finite (vx v : float32) = true /\ is_finite (vy v : float32) = true /\ bpow radix2 (-60) <= length32 v <= bpow radix2 100.

Lemma sqrt_near : forall s d e, 0 <= s -> 0 <= e <= 1 -> Rabs (d - s * s) <= e * (s * s) -> Rabs (sqrt d - s) <= e * s.
Proof.
  intros s d e S E H. apply Rabs_le_inv in H.
  assert (D : 0 <= d) by nra. pose proof (sqrt_sqrt d D) as Q. pose proof (sqrt_pos d) as Q0. set (r := sqrt d) in *. clearbody r.
  apply Rabs_le. split.
  - destruct (Rle_lt_dec (s - e * s) r) as [L|L]; [lra|exfalso]. assert (0 <= s - e * s) by nra. assert (r * r < (s - e * s) * (s - e * s)) by nra. nra.
  - destruct (Rle_lt_dec r (s + e * s)) as [L|L]; [lra|exfalso]. assert (0 <= s + e * s) by nra. assert ((s + e * s) * (s + e * s) < r * r) by nra. nra.
Qed.

Lemma magnitude_near : forall v, ordinary_vec v ->
  is_finite (magnitude v : float32) = true /\ Rabs (B2R (magnitude v : float32) - length32 v) <= / 8388608 * length32 v.
Proof.
  intros [x y] (FX & FY & B). unfold magnitude. cbn [vx vy] in *. unfold A in *. cbn [fhypot ieee]. change float32 in x. change float32 in y.
  unfold length32 in *. cbn [vx vy] in *. unfold b_hypot.
  replace (is_inf x || is_inf y) with false by (destruct x, y; try discriminate FX; try discriminate FY; reflexivity).
  destruct (f2d_fin x FX) as [X1 X2]. destruct (f2d_fin y FY) as [Y1 Y2].
  set (s2 := B2R x * B2R x + B2R y * B2R y) in *. assert (S0 : 0 <= s2) by (unfold s2; nra).
  set (n := sqrt s2) in *. assert (NN : n * n = s2) by (apply sqrt_sqrt; exact S0).
  change (bpow radix2 100) with 1267650600228229401496703205376 in B. assert (B60 : bpow radix2 (-60) = / 1152921504606846976) by (apply bpow_powerRZ || reflexivity). rewrite B60 in B.
  assert (N2 : / 1152921504606846976 * / 1152921504606846976 <= s2 <= 1267650600228229401496703205376 * 1267650600228229401496703205376).
  { rewrite <- NN. split; apply Rmult_le_compat; lra. }
  assert (BS : s2 <= IZR (2 ^ 1023)).
  { eapply Rle_trans; [apply N2|]. rewrite <- mult_IZR. apply IZR_le. now vm_compute. }
  assert (QX : 0 <= B2R x * B2R x) by nra. assert (QY : 0 <= B2R y * B2R y) by nra.
  destruct (mult_fin 53 1024 _ _ _ _ X1 X1) as [MX1 MX2].
  { rewrite X2. apply small_le64. rewrite Rabs_pos_eq by exact QX. unfold s2 in BS. lra. }
  destruct (mult_fin 53 1024 _ _ _ _ Y1 Y1) as [MY1 MY2].
  { rewrite Y2. apply small_le64. rewrite Rabs_pos_eq by exact QY. unfold s2 in BS. lra. }
  rewrite X2 in MX2. rewrite Y2 in MY2. rewrite rnd_id in MX2 by apply fmt_square. rewrite rnd_id in MY2 by apply fmt_square.
  destruct (plus_fin 53 1024 _ _ _ _ MX1 MY1) as [S1 S2].
  { rewrite MX2, MY2. fold s2. apply small_le64. rewrite Rabs_pos_eq by lra. lra. }
  rewrite MX2, MY2 in S2. fold s2 in S2. set (S := Bplus mode_NE _ _) in *.
  assert (ET : eta <= / 1073741824 * s2).
  { apply Rle_trans with (/ 1073741824 * (/ 1152921504606846976 * / 1152921504606846976)); [|apply Rmult_le_compat_l; [lra|apply N2]].
    apply Req_le. unfold eta. rewrite <- !Rinv_mult, <- !mult_IZR. change (-150)%Z with (- (150))%Z. rewrite bpow_opp. reflexivity. }
  assert (ES : Rabs (B2R S - n * n) <= / 536870912 * (n * n)).
  { rewrite S2, NN. eapply Rle_trans; [apply r64_error|]. rewrite (Rabs_pos_eq s2) by exact S0. unfold u53. lra. }
  assert (GS : 0 <= B2R S) by (apply Rabs_le_inv in ES; rewrite NN in ES; lra).
  destruct (sqrt_fin 53 1024 _ _ S S1 GS) as [R1 R2].
  assert (NP : 0 <= n) by lra. pose proof (sqrt_near n (B2R S) (/ 536870912) NP ltac:(lra) ES) as EQ.
  set (q := sqrt (B2R S)) in *. clearbody q. set (m := Bsqrt mode_NE S) in *. clearbody m.
  assert (EN : eta <= / 1073741824 * n).
  { apply Rle_trans with (/ 1073741824 * / 1152921504606846976); [|apply Rmult_le_compat_l; lra].
    unfold eta. rewrite <- !Rinv_mult, <- !mult_IZR. replace (/ IZR _) with (bpow radix2 (-90)) by reflexivity. apply bpow_le. lia. }
  apply Rabs_le_inv in EQ.
  assert (EM : Rabs (B2R m - n) <= / 134217728 * n).
  { rewrite R2. pose proof (r64_error q) as E. rewrite (Rabs_pos_eq q) in E by lra. apply Rabs_le_inv in E. apply Rabs_le. unfold u53 in E. lra. }
  apply Rabs_le_inv in EM.
  destruct (d2f_fin m R1) as [D1 D2].
  { apply small_le32. rewrite Rabs_pos_eq by lra. apply Rle_trans with (2 * n); [lra|]. apply Rle_trans with (2 * 1267650600228229401496703205376); [lra|]. rewrite <- mult_IZR. apply IZR_le. now vm_compute. }
  split; [exact D1|]. rewrite D2. pose proof (r32_error (B2R m)) as E. rewrite (Rabs_pos_eq (B2R m)) in E by lra. apply Rabs_le_inv in E. apply Rabs_le. unfold u24 in E. lra.
Qed.

Lemma length_component : forall v, Rabs (B2R (vx v : float32)) <= length32 v /\ Rabs (B2R (vy v : float32)) <= length32 v.
Proof.
  intros v. unfold length32. set (a := B2R (vx v : float32)). set (b := B2R (vy v : float32)). clearbody a b.
  split; [rewrite <- (sqrt_Rsqr_abs a)|rewrite <- (sqrt_Rsqr_abs b)]; apply sqrt_le_1_alt; unfold Rsqr; nra.
Qed.
Lemma unit_near : forall (a m : float32) n, is_finite a = true -> is_finite m = true -> bpow radix2 (-60) <= n -> Rabs (B2R a) <= n -> Rabs (B2R m - n) <= / 8388608 * n ->
  is_finite (Bdiv mode_NE a m) = true /\ Rabs (B2R (Bdiv mode_NE a m) - B2R a / n) <= / 4194304.
Proof.
  intros a m n FA FM N AN MN. pose proof (bpow_gt_0 radix2 (-60)) as P60. set (lo := bpow radix2 (-60)) in *. clearbody lo.
  apply Rabs_le_inv in MN. assert (MP : 0 < B2R m) by lra. set (x := B2R a) in *. set (y := B2R m) in *.
  assert (Q : Rabs (x / n) <= 1).
  { unfold Rdiv. rewrite Rabs_mult, Rabs_inv, (Rabs_pos_eq n) by lra. apply Rmult_le_reg_r with n; [lra|]. rewrite Rmult_assoc, Rinv_l by lra. lra. }
  assert (D : Rabs (x / y - x / n) <= / 8388000).
  { replace (x / y - x / n) with (x / n * ((n - y) / y)) by (field; split; lra). rewrite Rabs_mult.
    assert (R : Rabs ((n - y) / y) <= / 8388000).
    { unfold Rdiv. rewrite Rabs_mult, Rabs_inv, (Rabs_pos_eq y) by lra. apply Rmult_le_reg_r with y; [exact MP|]. rewrite Rmult_assoc, Rinv_l by lra. rewrite Rmult_1_r. apply Rabs_le. lra. }
    pose proof (Rabs_pos (x / n)). pose proof (Rabs_pos ((n - y) / y)). nra. }
  assert (W : Rabs (x / y) <= 2).
  { replace (x / y) with (x / n + (x / y - x / n)) by ring. eapply Rle_trans; [apply Rabs_triang|]. lra. }
  destruct (div_fin 24 128 _ _ a m FA ltac:(fold y; lra)) as [K1 K2].
  { fold x y. apply small_le32. eapply Rle_trans; [exact W|]. apply IZR_le. lia. }
  split; [exact K1|]. rewrite K2. fold x y. pose proof (r32_error (x / y)) as E.
  assert (ET : eta <= / 1073741824) by (unfold eta; change (/ 1073741824) with (bpow radix2 (-30)); apply bpow_le; lia).
  assert (W1 : Rabs (x / y) <= 1 + / 8388000).
  { replace (x / y) with (x / n + (x / y - x / n)) by ring. eapply Rle_trans; [apply Rabs_triang|]. lra. }
  replace (r32 (x / y) - x / n) with ((r32 (x / y) - x / y) + (x / y - x / n)) by ring. eapply Rle_trans; [apply Rabs_triang|]. unfold u24 in E. lra.
Qed.
Lemma product_near : forall (a b : float32) x y e, is_finite a = true -> is_finite b = true -> Rabs x <= 1 -> Rabs y <= 1 -> Rabs (B2R a) <= 1 ->
  Rabs (B2R a - x) <= e -> Rabs (B2R b - y) <= e -> Rabs (B2R b) <= 1 ->
  is_finite (Bmult mode_NE a b) = true /\ Rabs (B2R (Bmult mode_NE a b)) <= 1 /\ Rabs (B2R (Bmult mode_NE a b) - x * y) <= 2 * e + / 16000000.
Proof.
  intros a b x y e FA FB X Y BA EA EB BB. set (u := B2R a) in *. set (w := B2R b) in *.
  assert (P : Rabs (u * w) <= 1) by (rewrite Rabs_mult; pose proof (Rabs_pos u); pose proof (Rabs_pos w); nra).
  destruct (mult_fin 24 128 _ _ a b FA FB) as [K1 K2]; [fold u w; apply small_le32; eapply Rle_trans; [exact P|]; apply IZR_le; lia|].
  split; [exact K1|]. rewrite K2. fold u w. split; [apply rnd_abs_le; [reflexivity|apply (fmt_IZR 24 128 1); lia|exact P]|].
  pose proof (r32_error (u * w)) as E.
  assert (ET : eta <= / 1073741824) by (unfold eta; change (/ 1073741824) with (bpow radix2 (-30)); apply bpow_le; lia).
  assert (Q : Rabs (u * w - x * y) <= 2 * e).
  { replace (u * w - x * y) with (u * (w - y) + (u - x) * y) by ring. eapply Rle_trans; [apply Rabs_triang|]. rewrite !Rabs_mult.
    pose proof (Rabs_pos u). pose proof (Rabs_pos y). pose proof (Rabs_pos (w - y)). pose proof (Rabs_pos (u - x)). nra. }
  replace (r32 (u * w) - x * y) with ((r32 (u * w) - u * w) + (u * w - x * y)) by ring. eapply Rle_trans; [apply Rabs_triang|]. unfold u24 in E. lra.
Qed.

Lemma finite_b : forall x : float32, negb (is_nan x) && negb (is_inf x) = is_finite x.
Proof. intros []; reflexivity. Qed.
Lemma angle_cases : forall u v : Vec2, is_finite (vx u : float32) = true -> is_finite (vy u : float32) = true -> is_finite (vx v : float32) = true -> is_finite (vy v : float32) = true ->
  absolute_angle_to u v =
    if Beqb (magnitude u : float32) (B754_zero false) || Beqb (magnitude v : float32) (B754_zero false) then Some (B754_zero false)
    else Some (acosf (std_clamp (Bplus mode_NE (Bmult mode_NE (Bdiv mode_NE (vx u) (magnitude u)) (Bdiv mode_NE (vx v) (magnitude v)))
                                               (Bmult mode_NE (Bdiv mode_NE (vy u) (magnitude u)) (Bdiv mode_NE (vy v) (magnitude v)))) fm1 f1)).
Proof.
  intros [ux uy] [wx wy] F1 F2 F3 F4. cbn [vx vy] in *. unfold absolute_angle_to, vfinite, fisfinite. cbn [vx vy]. unfold A in *. cbn [fisnan fisinf ieee].
  rewrite !finite_b, F1, F2, F3, F4. cbn [negb andb orb]. cbv zeta. cbn [feqb ieee]. rewrite f0_eq. unfold vdot, vdiv. cbn [vx vy fdiv fmul fadd facos ieee]. reflexivity.
Qed.
End Vec.

(** ** binary32 *)
(** An error exactly for a non-finite vector. *)
Theorem C53_angle_error_iff : forall acosf (A := ieee acosf) (u v : Vec2 (A := ieee acosf)),
  absolute_angle_to u v = None <->
  ~ (is_finite (vx u : float32) = true /\ is_finite (vy u : float32) = true /\ is_finite (vx v : float32) = true /\ is_finite (vy v : float32) = true).
Proof.
  intros acosf A u v. subst A. split.
  - intros H (F1 & F2 & F3 & F4). rewrite (angle_cases acosf u v F1 F2 F3 F4) in H. destruct (_ || _); discriminate H.
  - intros N. destruct u as [ux uy], v as [wx wy]. cbn [vx vy] in N. unfold absolute_angle_to, vfinite, fisfinite. cbn [vx vy fisnan fisinf ieee].
    rewrite !finite_b. destruct (is_finite ux), (is_finite uy), (is_finite wx), (is_finite wy); try reflexivity. exfalso. apply N. auto.
Qed.

(** The same both ways round. *)
Theorem C53_angle_symmetric : forall acosf (A := ieee acosf) (u v : Vec2 (A := ieee acosf)), absolute_angle_to u v = absolute_angle_to v u.
Proof.
  intros acosf A u v. subst A.
  destruct (is_finite (vx u : float32)) eqn:F1; [destruct (is_finite (vy u : float32)) eqn:F2; [destruct (is_finite (vx v : float32)) eqn:F3; [destruct (is_finite (vy v : float32)) eqn:F4|]|]|].
  2-5: transitivity (@None float32); [|symmetry]; apply C53_angle_error_iff; intros (H1 & H2 & H3 & H4); congruence.
  rewrite (angle_cases acosf u v F1 F2 F3 F4), (angle_cases acosf v u F3 F4 F1 F2). rewrite orb_comm.
  unfold magnitude. cbn [fhypot ieee].
  destruct (hypot_fin (vx u) (vy u) F1 F2) as [NU LU]. destruct (hypot_fin (vx v) (vy v) F3 F4) as [NW LW].
  destruct (Beqb (b_hypot (vx v) (vy v)) (B754_zero false)) eqn:Z2; [reflexivity|].
  destruct (Beqb (b_hypot (vx u) (vy u)) (B754_zero false)) eqn:Z1; [reflexivity|]. cbn [orb].
  destruct (div_unit _ _ F1 NU (fun F => proj1 (LU F)) Z1) as [A1 A2].
  destruct (div_unit _ _ F2 NU (fun F => proj2 (LU F)) Z1) as [B1 B2].
  destruct (div_unit _ _ F3 NW (fun F => proj1 (LW F)) Z2) as [C1 C2].
  destruct (div_unit _ _ F4 NW (fun F => proj2 (LW F)) Z2) as [D1 D2].
  assert (PR : forall a b : float32, Rabs (B2R a) <= 1 -> Rabs (B2R b) <= 1 -> Rabs (B2R a * B2R b) <= 1).
  { intros a b HA HB. rewrite Rabs_mult. pose proof (Rabs_pos (B2R a)). pose proof (Rabs_pos (B2R b)). nra. }
  rewrite (mult_sym _ _ A1 C1 (PR _ _ A2 C2)), (mult_sym _ _ B1 D1 (PR _ _ B2 D2)). reflexivity.
Qed.

(** In the range of the C library's acosf on [-1, 1], or 0. *)
Theorem C53_angle_range : forall acosf (A := ieee acosf) (u v : Vec2 (A := ieee acosf)) (top a : float32),
  (forall x : float32, Bleb (b32 (-1) 0) x = true -> Bleb x (b32 1 0) = true -> Bleb (B754_zero false) (acosf x) = true /\ Bleb (acosf x) top = true) ->
  Bleb (B754_zero false) top = true -> absolute_angle_to u v = Some a ->
  Bleb (B754_zero false) a = true /\ Bleb a top = true.
Proof.
  intros acosf A u v top a HA HT H. subst A. destruct (angle_value acosf u v a H) as [->|(x & L1 & L2 & ->)]; [split; [reflexivity|exact HT]|].
  apply HA; assumption.
Qed.

(** For vectors of ordinary length, the arc cosine is taken of a number within 2^-19
    of the cosine of the angle between them. *)
Theorem C53_angle_accuracy : forall acosf (A := ieee acosf) (u v : Vec2 (A := ieee acosf)),
  ordinary_vec acosf u -> ordinary_vec acosf v ->
  exists x : float32, absolute_angle_to u v = Some (acosf x) /\ is_finite x = true /\ -1 <= B2R x <= 1 /\
    Rabs (B2R x - (B2R (vx u : float32) * B2R (vx v : float32) + B2R (vy u : float32) * B2R (vy v : float32)) / (length32 acosf u * length32 acosf v)) <= bpow radix2 (-19).
Proof.
  intros acosf A u v OU OV. subst A.
  destruct (magnitude_near acosf u OU) as [FMU EMU]. destruct (magnitude_near acosf v OV) as [FMV EMV].
  destruct OU as (F1 & F2 & LU). destruct OV as (F3 & F4 & LV). rewrite (angle_cases acosf u v F1 F2 F3 F4).
  destruct (length_component acosf u) as [CU1 CU2]. destruct (length_component acosf v) as [CV1 CV2].
  set (nu := length32 acosf u) in *. set (nv := length32 acosf v) in *. pose proof (bpow_gt_0 radix2 (-60)) as P60.
  assert (NZ : forall (m : float32) n, bpow radix2 (-60) <= n -> is_finite m = true -> Rabs (B2R m - n) <= / 8388608 * n -> Beqb m (B754_zero false) = false).
  { intros m n L F E. destruct (Beqb m (B754_zero false)) eqn:Z; [|reflexivity]. apply (eqb_R 24 128) in Z; [|exact F|reflexivity]. rewrite Z in E. cbn in E. apply Rabs_le_inv in E. lra. }
  rewrite (NZ _ _ (proj1 LU) FMU EMU), (NZ _ _ (proj1 LV) FMV EMV). cbn [orb].
  destruct (hypot_fin (vx u) (vy u) F1 F2) as [NU LLU]. destruct (hypot_fin (vx v) (vy v) F3 F4) as [NW LLV].
  destruct (unit_near _ _ _ F1 FMU (proj1 LU) CU1 EMU) as [A1 A2]. destruct (unit_near _ _ _ F2 FMU (proj1 LU) CU2 EMU) as [B1 B2].
  destruct (unit_near _ _ _ F3 FMV (proj1 LV) CV1 EMV) as [C1 C2]. destruct (unit_near _ _ _ F4 FMV (proj1 LV) CV2 EMV) as [D1 D2].
  destruct (div_unit _ _ F1 NU (fun F => proj1 (LLU F)) (NZ _ _ (proj1 LU) FMU EMU)) as [_ A3].
  destruct (div_unit _ _ F2 NU (fun F => proj2 (LLU F)) (NZ _ _ (proj1 LU) FMU EMU)) as [_ B3].
  destruct (div_unit _ _ F3 NW (fun F => proj1 (LLV F)) (NZ _ _ (proj1 LV) FMV EMV)) as [_ C3].
  destruct (div_unit _ _ F4 NW (fun F => proj2 (LLV F)) (NZ _ _ (proj1 LV) FMV EMV)) as [_ D3].
  change (b_hypot (vx u) (vy u)) with (magnitude u) in *. change (b_hypot (vx v) (vy v)) with (magnitude v) in *.
  assert (UN : forall a n, bpow radix2 (-60) <= n -> Rabs a <= n -> Rabs (a / n) <= 1).
  { intros a n L B. unfold Rdiv. rewrite Rabs_mult, Rabs_inv, (Rabs_pos_eq n) by lra. apply Rmult_le_reg_r with n; [lra|]. rewrite Rmult_assoc, Rinv_l by lra. lra. }
  destruct (product_near _ _ _ _ (/ 4194304) A1 C1 (UN _ _ (proj1 LU) CU1) (UN _ _ (proj1 LV) CV1) A3 A2 C2 C3) as (M1 & M2 & M3).
  destruct (product_near _ _ _ _ (/ 4194304) B1 D1 (UN _ _ (proj1 LU) CU2) (UN _ _ (proj1 LV) CV2) B3 B2 D2 D3) as (N1 & N2 & N3).
  set (p := Bmult mode_NE _ _) in *. set (q := Bmult mode_NE (Bdiv mode_NE (vy u) _) _) in *.
  destruct (plus_fin 24 128 _ _ p q M1 N1) as [S1 S2].
  { apply small_le32. eapply Rle_trans; [apply Rabs_triang|]. apply Rle_trans with 2; [lra|]. apply IZR_le. lia. }
  set (w := Bplus mode_NE p q) in *.
  set (c := (B2R (vx u : float32) * B2R (vx v : float32) + B2R (vy u : float32) * B2R (vy v : float32)) / (nu * nv)).
  assert (EC : c = B2R (vx u : float32) / nu * (B2R (vx v : float32) / nv) + B2R (vy u : float32) / nu * (B2R (vy v : float32) / nv)) by (unfold c; field; split; lra).
  assert (ET : eta <= / 1073741824) by (unfold eta; change (/ 1073741824) with (bpow radix2 (-30)); apply bpow_le; lia).
  change (bpow radix2 (-19)) with (/ 524288).
  assert (EW : Rabs (B2R w - c) <= / 524288).
  { rewrite S2. pose proof (r32_error (B2R p + B2R q)) as E. assert (B : Rabs (B2R p + B2R q) <= 2) by (eapply Rle_trans; [apply Rabs_triang|]; lra).
    rewrite EC. apply Rabs_le_inv in E. apply Rabs_le_inv in M3. apply Rabs_le_inv in N3. apply Rabs_le. unfold u24 in E. lra. }
  assert (C1' : -1 <= c <= 1).
  { assert (NU2 : nu * nu = B2R (vx u : float32) * B2R (vx u : float32) + B2R (vy u : float32) * B2R (vy u : float32)) by (apply sqrt_sqrt; nra).
    assert (NV2 : nv * nv = B2R (vx v : float32) * B2R (vx v : float32) + B2R (vy v : float32) * B2R (vy v : float32)) by (apply sqrt_sqrt; nra).
    assert (P : 0 < nu * nv) by (apply Rmult_lt_0_compat; lra). unfold c.
    set (a1 := B2R (vx u : float32)) in *. set (a2 := B2R (vy u : float32)) in *. set (b1 := B2R (vx v : float32)) in *. set (b2 := B2R (vy v : float32)) in *.
    assert (Q : (a1 * b1 + a2 * b2) * (a1 * b1 + a2 * b2) <= nu * nv * (nu * nv)).
    { replace (nu * nv * (nu * nv)) with ((nu * nu) * (nv * nv)) by ring. rewrite NU2, NV2. pose proof (Rle_0_sqr (a1 * b2 - a2 * b1)) as SQ. unfold Rsqr in SQ. lra. }
    clear - P Q. set (d := a1 * b1 + a2 * b2) in *. set (n := nu * nv) in *. clearbody d n.
    assert (B : - n <= d <= n) by nra. split; apply Rmult_le_reg_r with n; try exact P; unfold Rdiv; rewrite Rmult_assoc, Rinv_l by lra; lra. }
  destruct (f1_fin acosf) as [G1 G2], (fm1_fin acosf) as [H1 H2]. apply Rabs_le_inv in EW.
  eexists. split; [reflexivity|]. unfold std_clamp. cbn [fltb ieee].
  destruct (Bltb w (@fm1 (ieee acosf))) eqn:E1; [|destruct (Bltb (@f1 (ieee acosf)) w) eqn:E2].
  - apply (ltb_R 24 128) in E1; [|exact S1|exact H1]. rewrite H2 in E1. split; [exact H1|]. rewrite H2. split; [lra|]. apply Rabs_le. lra.
  - apply (ltb_R 24 128) in E2; [|exact G1|exact S1]. rewrite G2 in E2. split; [exact G1|]. rewrite G2. split; [lra|]. apply Rabs_le. lra.
  - apply (ltb_false_R 24 128) in E1; [|exact S1|exact H1]. apply (ltb_false_R 24 128) in E2; [|exact G1|exact S1]. rewrite H2 in E1. rewrite G2 in E2.
    split; [exact S1|]. split; [lra|]. apply Rabs_le. lra.
Qed.
