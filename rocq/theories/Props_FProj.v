(** * C31 (with C29, C30) in binary32/binary64: the nearest point of the recent inputs, up to rounding. *)
From Coq Require Import ZArith Bool List Reals Lra Lia Psatz.
From Flocq Require Import Core BinarySingleNaN.
From Verif Require Props_Proj.
From Verif Require Import Props_Finite Props_FEnd Props_FSpring Props_FRest Props_FRate Props_FLift Stable Filter Props_Stylus Memory Props_Params.
Import ListNotations.
Open Scope R_scope.

(** ** Specification *)
(** The distance of the point [q] from the point a fraction [t] of the way from [a] to [b]. *)
Definition far_along {acosf : float32 -> float32} (q a b : Vec2 (A := ieee acosf)) (t : R) : R :=
  sqrt ((real32 (vx a) + (real32 (vx b) - real32 (vx a)) * t - real32 (vx q)) * (real32 (vx a) + (real32 (vx b) - real32 (vx a)) * t - real32 (vx q)) +
        (real32 (vy a) + (real32 (vy b) - real32 (vy a)) * t - real32 (vy q)) * (real32 (vy a) + (real32 (vy b) - real32 (vy a)) * t - real32 (vy q))).
(** A finite point whose coordinates are at most [N]. *)
Definition within {acosf : float32 -> float32} (N : R) (u : Vec2 (A := ieee acosf)) : Prop :=
  is_finite (vx u : float32) = true /\ is_finite (vy u : float32) = true /\ Rabs (real32 (vx u)) <= N /\ Rabs (real32 (vy u)) <= N.
(** Two points that are equal or at least 2^-50 apart. *)
Definition spread {acosf : float32 -> float32} (a b : Vec2 (A := ieee acosf)) : Prop :=
  same_numbers a b \/ bpow radix2 (-50) <= far a b.

(** [x] and [y] are consecutive inputs of the polyline [pts], [t] a fraction of the
    way between them; a single input is a polyline of one point. *)
Definition on_line {acosf : float32 -> float32} (pts : list (Input (A := ieee acosf))) (x y : Input (A := ieee acosf)) (t : R) : Prop :=
  In (x, y) (Props_Proj.segments pts) /\ 0 <= t <= 1 \/ pts = [x] /\ y = x /\ t = 0.
(** No point of the polyline is nearer to [q], up to 16 millionths of [N]. *)
Definition nearly_nearest {acosf : float32 -> float32} (N : R) (pts : list (Input (A := ieee acosf))) (q : Vec2 (A := ieee acosf))
    (x y : Input (A := ieee acosf)) (t : R) : Prop :=
  on_line pts x y t /\
  forall x' y' t', on_line pts x' y' t' -> far_along q (i_pos x) (i_pos y) t <= far_along q (i_pos x') (i_pos y') t' + 16 * ppm * N.

(** A pressure or tilt that is known and at most 2^60. *)
Definition plain_value (v : float32) : Prop := is_finite v = true /\ 0 <= real32 v <= bpow radix2 60.
(** [v] is the value a fraction [t] of the way from [a] to [b], up to a millionth. *)
Definition nearly_between (a b : float32) (t : R) (v : float32) : Prop :=
  is_finite v = true /\ Rabs (real32 v - (real32 a + (real32 b - real32 a) * t)) <= ppm * (real32 a + real32 b) + tiny.
(** Two angles that differ by whole turns, up to 16 millionths.  A turn is the
    binary64 number [T2pi] nearest to two pi. *)
Definition near_angle (x y : R) : Prop := exists k : Z, Rabs (y - x - T2pi * IZR k) <= 16 * ppm.
(** [o] is reached from [o1] by a fraction [t] of a turn that leads to [o2] and is at
    most half a turn either way. *)
Definition nearly_turned (o1 o2 t o : R) : Prop :=
  exists d, Rabs d <= T2pi / 2 + 2 * ppm /\ near_angle (o1 + d) o2 /\ near_angle (o1 + d * t) o /\ 0 <= o <= T2pi.
(** The result's pressure, tilt and orientation, if all the inputs [l] have them, are
    those a fraction [t] of the way from [a] to [b]. *)
Definition nearly_taken {acosf : float32 -> float32} (l : list (Input (A := ieee acosf))) (a b : Input (A := ieee acosf)) (t : R)
    (r : Result (A := ieee acosf)) : Prop :=
  ((forall i, In i l -> plain_value (i_pressure i)) -> nearly_between (i_pressure a) (i_pressure b) t (r_pressure r)) /\
  ((forall i, In i l -> plain_value (i_tilt i)) -> nearly_between (i_tilt a) (i_tilt b) t (r_tilt r)) /\
  ((forall i, In i l -> in_turn_closed (i_orient i)) -> is_finite (r_orient r : float32) = true /\
     nearly_turned (real32 (i_orient a)) (real32 (i_orient b)) t (real32 (r_orient r))).
Definition float_reported {acosf : float32 -> float32} (N : R) (l pts : list (Input (A := ieee acosf))) (r : Result (A := ieee acosf)) : Prop :=
  within N (r_pos r) -> exists x y t, nearly_nearest N pts (r_pos r) x y t /\ nearly_taken l x y t r.
(** The inputs are at most [N] away from the origin in each coordinate and
    consecutive ones coincide or are 2^-50 apart. *)
Definition spread_out {acosf : float32 -> float32} (N : R) (pts : list (Input (A := ieee acosf))) : Prop :=
  (forall x, In x pts -> within N (i_pos x)) /\ (forall x y, In (x, y) (Props_Proj.segments pts) -> spread (i_pos x) (i_pos y)).

(** ** Numbers *)
Lemma abs_sq : forall u, Rabs u * Rabs u = u * u.
Proof. intros u. unfold Rabs. destruct Rcase_abs; ring. Qed.
Definition hyp (x y : R) : R := sqrt (x * x + y * y).
Lemma hyp_sq : forall x y, 0 <= hyp x y /\ hyp x y * hyp x y = x * x + y * y.
Proof. intros x y. apply root. pose proof (Rle_0_sqr x). pose proof (Rle_0_sqr y). unfold Rsqr in *. lra. Qed.
Lemma hyp_tri : forall x y z w, hyp (x + z) (y + w) <= hyp x y + hyp z w.
Proof.
  intros x y z w. destruct (hyp_sq x y) as [A0 A1]. destruct (hyp_sq z w) as [B0 B1]. destruct (hyp_sq (x + z) (y + w)) as [C0 C1].
  set (a := hyp x y) in *. set (b := hyp z w) in *. set (c := hyp (x + z) (y + w)) in *. clearbody a b c.
  apply Rsqr_incr_0_var; [|lra]. unfold Rsqr. rewrite C1.
  assert (K : x * z + y * w <= a * b).
  { destruct (Rle_or_lt (x * z + y * w) 0) as [N|N]; [apply Rle_trans with 0; [exact N|apply Rmult_le_pos; assumption]|].
    apply Rsqr_incr_0_var; [|apply Rmult_le_pos; assumption]. unfold Rsqr.
    replace (a * b * (a * b)) with ((a * a) * (b * b)) by ring. rewrite A1, B1.
    pose proof (Rle_0_sqr (x * w - y * z)) as Q. unfold Rsqr in Q. lra. }
  replace ((a + b) * (a + b)) with (a * a + b * b + 2 * (a * b)) by ring. rewrite A1, B1. lra.
Qed.
Lemma hyp_shift : forall x y x' y' e, Rabs (x' - x) <= e -> Rabs (y' - y) <= e -> hyp x' y' <= hyp x y + 3 / 2 * e.
Proof.
  intros x y x' y' e HX HY. pose proof (hyp_tri x y (x' - x) (y' - y)) as T.
  replace (x + (x' - x)) with x' in T by ring. replace (y + (y' - y)) with y' in T by ring.
  assert (E0 : 0 <= e) by (eapply Rle_trans; [apply Rabs_pos|exact HX]).
  destruct (hyp_sq (x' - x) (y' - y)) as [A0 A1]. set (d := hyp (x' - x) (y' - y)) in *.
  assert (K : d <= 3 / 2 * e).
  { apply Rsqr_incr_0_var; [|lra]. unfold Rsqr. rewrite A1.
    assert (S : forall u, Rabs u <= e -> u * u <= e * e) by (intros u U; rewrite <- (abs_sq u); apply Rmult_le_compat; try apply Rabs_pos; exact U).
    pose proof (S _ HX). pose proof (S _ HY). nra. }
  lra.
Qed.
Lemma hyp_le : forall x y N, Rabs x <= N -> Rabs y <= N -> hyp x y <= 3 / 2 * N.
Proof.
  intros x y N HX HY. pose proof (hyp_shift 0 0 x y N) as H. rewrite !Rminus_0_r in H. specialize (H HX HY).
  assert (Z : hyp 0 0 = 0) by (unfold hyp; rewrite Rmult_0_l, Rplus_0_l; apply sqrt_0). rewrite Z in H. lra.
Qed.
Lemma hyp_scale : forall x y k, hyp (x * k) (y * k) = hyp x y * Rabs k.
Proof.
  intros x y k. destruct (hyp_sq x y) as [A0 A1]. unfold hyp at 1.
  replace (x * k * (x * k) + y * k * (y * k)) with ((hyp x y * Rabs k) * (hyp x y * Rabs k)).
  { apply sqrt_square. apply Rmult_le_pos; [exact A0|apply Rabs_pos]. }
  replace (hyp x y * Rabs k * (hyp x y * Rabs k)) with (hyp x y * hyp x y * (Rabs k * Rabs k)) by ring. rewrite A1, abs_sq. ring.
Qed.

Definition unit_cut (x : R) : R := Rmax 0 (Rmin 1 x).
Lemma unit_cut_range : forall x, 0 <= unit_cut x <= 1.
Proof. intros x. unfold unit_cut. split; [apply Rmax_l|]. apply Rmax_lub; [lra|apply Rmin_l]. Qed.
Lemma unit_cut_cases : forall x, x <= 0 /\ unit_cut x = 0 \/ 0 <= x <= 1 /\ unit_cut x = x \/ 1 <= x /\ unit_cut x = 1.
Proof.
  intros x. unfold unit_cut, Rmin. destruct (Rle_dec 1 x) as [L|L].
  - right. right. split; [exact L|]. apply Rmax_right. lra.
  - destruct (Rle_or_lt x 0) as [Z|Z]; [left; split; [exact Z|apply Rmax_left; exact Z]|]. right. left. split; [lra|apply Rmax_right; lra].
Qed.
Lemma unit_cut_near : forall x y, Rabs (unit_cut x - unit_cut y) <= Rabs (x - y).
Proof.
  intros x y. destruct (unit_cut_cases x) as [[? ->]|[[? ->]|[? ->]]], (unit_cut_cases y) as [[? ->]|[[? ->]|[? ->]]]; unfold Rabs; repeat destruct Rcase_abs; lra.
Qed.

(** The nearest point of a segment [h] from [a], where the segment is [g] and [q] is [h] from its start. *)
Lemma segment_min : forall gx gy hx hy t, 0 < gx * gx + gy * gy -> 0 <= t <= 1 ->
  let T := (hx * gx + hy * gy) / (gx * gx + gy * gy) in
  hyp (gx * unit_cut T - hx) (gy * unit_cut T - hy) <= hyp (gx * t - hx) (gy * t - hy).
Proof.
  intros gx gy hx hy t L T0 T. set (len := gx * gx + gy * gy) in *. apply sqrt_le_1_alt.
  assert (E : forall c, (gx * c - hx) * (gx * c - hx) + (gy * c - hy) * (gy * c - hy) = len * ((c - T) * (c - T)) + (hx * hx + hy * hy - len * (T * T))).
  { intros c. assert (TE : len * T = hx * gx + hy * gy) by (unfold T; field; lra).
    transitivity (len * (c * c) - 2 * c * (hx * gx + hy * gy) + (hx * hx + hy * hy)); [unfold len; ring|]. rewrite <- TE. ring. }
  rewrite !E. apply Rplus_le_compat_r. apply Rmult_le_compat_l; [lra|].
  assert (K : forall u, 0 <= u <= 1 -> Rabs (unit_cut T - T) <= Rabs (u - T)).
  { intros u U. destruct (unit_cut_cases T) as [[? ->]|[[? ->]|[? ->]]]; unfold Rabs; repeat destruct Rcase_abs; lra. }
  specialize (K t T0). rewrite <- (abs_sq (unit_cut T - T)), <- (abs_sq (t - T)). apply Rmult_le_compat; try apply Rabs_pos; exact K.
Qed.

(** The computed quotient. *)
Lemma quotient_error : forall P L dot len df lf, 0 < L -> 0 <= P -> len = L * L -> Rabs dot <= 2 * (P * L) ->
  Rabs (df - dot) <= 9 * u24 * (P * L) + u24 * (L * L) -> Rabs (lf - len) <= 10 * u24 * (L * L) ->
  0 < lf /\ Rabs (df / lf - dot / len) * L <= 30 * u24 * P + 2 * u24 * L /\ Rabs (df / lf) * L <= 3 * P + L.
Proof.
  intros P L dot len df lf L0 P0 LE DB DE LF. assert (U : u24 = / 16777216) by reflexivity.
  assert (LL : 0 < L * L) by (apply Rmult_lt_0_compat; assumption). assert (PL : 0 <= P * L) by (apply Rmult_le_pos; lra).
  assert (LF3 : (1 - 10 * u24) * len <= lf) by (apply Rabs_le_inv in LF; rewrite LE in *; lra).
  assert (LP : 0 < lf) by (rewrite LE, U in LF3; lra). assert (LN : 0 < len) by (rewrite LE; exact LL).
  split; [exact LP|].
  assert (K : Rabs (df / lf - dot / len) * L <= 30 * u24 * P + 2 * u24 * L).
  { replace (df / lf - dot / len) with ((df - dot) / lf - dot * (lf - len) / (lf * len)) by (field; lra).
    assert (B1 : Rabs ((df - dot) / lf) * L <= (9 * u24 * P + u24 * L) * (101 / 100)).
    { unfold Rdiv. rewrite Rabs_mult, (Rabs_pos_eq (/ lf)) by (apply Rlt_le, Rinv_0_lt_compat; exact LP).
      apply Rmult_le_reg_r with lf; [exact LP|]. replace (Rabs (df - dot) * / lf * L * lf) with (Rabs (df - dot) * L) by (field; lra).
      apply Rle_trans with ((9 * u24 * (P * L) + u24 * (L * L)) * L); [apply Rmult_le_compat_r; lra|].
      replace ((9 * u24 * (P * L) + u24 * (L * L)) * L) with ((9 * u24 * P + u24 * L) * len) by (rewrite LE; ring).
      assert (X0 : 0 <= 9 * u24 * P + u24 * L) by (rewrite U; lra).
      rewrite (Rmult_assoc (9 * u24 * P + u24 * L)). apply Rmult_le_compat_l; [exact X0|]. rewrite U in LF3. lra. }
    assert (B2 : Rabs (dot * (lf - len) / (lf * len)) * L <= 20 * u24 * P * (101 / 100)).
    { unfold Rdiv. rewrite !Rabs_mult, (Rabs_pos_eq (/ (lf * len))) by (apply Rlt_le, Rinv_0_lt_compat, Rmult_lt_0_compat; assumption).
      apply Rmult_le_reg_r with (lf * len); [apply Rmult_lt_0_compat; assumption|].
      replace (Rabs dot * Rabs (lf - len) * / (lf * len) * L * (lf * len)) with (Rabs dot * Rabs (lf - len) * L) by (field; lra).
      apply Rle_trans with (2 * (P * L) * (10 * u24 * (L * L)) * L).
      { apply Rmult_le_compat_r; [lra|]. apply Rmult_le_compat; try apply Rabs_pos; assumption. }
      replace (2 * (P * L) * (10 * u24 * (L * L)) * L) with ((20 * u24 * P) * (len * len)) by (rewrite LE; ring).
      assert (X0 : 0 <= 20 * u24 * P) by (rewrite U; lra).
      replace (20 * u24 * P * (101 * / 100) * (lf * len)) with ((20 * u24 * P) * (101 / 100 * lf * len)) by field. apply Rmult_le_compat_l; [exact X0|].
      apply Rmult_le_compat_r; [lra|]. rewrite U in LF3. lra. }
    set (x1 := (df - dot) / lf) in *. set (x2 := dot * (lf - len) / (lf * len)) in *.
    eapply Rle_trans; [apply Rmult_le_compat_r; [lra|]; unfold Rminus; eapply Rle_trans; [apply Rabs_triang|rewrite Rabs_Ropp; apply Rle_refl]|].
    rewrite Rmult_plus_distr_r. rewrite U in *. lra. }
  split; [exact K|].
  assert (B3 : Rabs (dot / len) * L <= 2 * P).
  { unfold Rdiv. rewrite Rabs_mult, (Rabs_pos_eq (/ len)) by (apply Rlt_le, Rinv_0_lt_compat; exact LN).
    apply Rmult_le_reg_r with len; [exact LN|]. replace (Rabs dot * / len * L * len) with (Rabs dot * L) by (field; lra).
    rewrite LE. apply Rle_trans with (2 * (P * L) * L); [apply Rmult_le_compat_r; lra|]. apply Req_le. ring. }
  replace (df / lf) with (dot / len + (df / lf - dot / len)) by ring.
  eapply Rle_trans; [apply Rmult_le_compat_r; [lra|apply Rabs_triang]|]. rewrite Rmult_plus_distr_r. rewrite U in K. lra.
Qed.

(** The computed length. *)
Lemma eta_root : eta = bpow radix2 (-75) * bpow radix2 (-75).
Proof. unfold eta. rewrite <- bpow_plus. reflexivity. Qed.
Lemma sqrt_near : forall S S', 0 <= S -> 0 <= S' -> Rabs (S' - S) <= 4 * u24 * S + 4 * eta ->
  Rabs (sqrt S' - sqrt S) <= 4 * u24 * sqrt S + 2 * bpow radix2 (-75).
Proof.
  intros S S' P P' H. destruct (root S P) as [D0 D1]. destruct (root S' P') as [W0 W1]. assert (U : u24 = / 16777216) by reflexivity.
  rewrite eta_root in H. pose proof (bpow_gt_0 radix2 (-75)) as B0. set (b := bpow radix2 (-75)) in *. clearbody b.
  set (d := sqrt S) in *. set (w := sqrt S') in *. clearbody d w. apply Rabs_le_inv in H. rewrite <- D1, <- W1 in H.
  assert (BB : 0 <= b * b) by (apply Rmult_le_pos; lra). assert (DB : 0 <= d * b) by (apply Rmult_le_pos; lra). assert (DD : 0 <= d * d) by (apply Rmult_le_pos; lra).
  apply Rabs_le. split.
  - assert (K : (1 - 4 * u24) * d - 2 * b <= w); [|lra].
    destruct (Rle_or_lt ((1 - 4 * u24) * d - 2 * b) 0) as [N|N]; [lra|].
    apply Rsqr_incr_0_var; [|exact W0]. unfold Rsqr.
    set (e := (1 - 4 * u24) * d) in *.
    assert (E1 : e * e <= (1 - 4 * u24) * (d * d)) by (unfold e; rewrite U; nra).
    replace ((e - 2 * b) * (e - 2 * b)) with (e * e - 4 * b * (e - 2 * b) - 4 * (b * b)) by ring.
    assert (0 <= 4 * b * (e - 2 * b)) by (apply Rmult_le_pos; lra). lra.
  - assert (K : w <= (1 + 4 * u24) * d + 2 * b); [|lra].
    apply Rsqr_incr_0_var; [|rewrite U; lra]. unfold Rsqr.
    replace (((1 + 4 * u24) * d + 2 * b) * ((1 + 4 * u24) * d + 2 * b)) with ((1 + 4 * u24) * (1 + 4 * u24) * (d * d) + 4 * (1 + 4 * u24) * (d * b) + 4 * (b * b)) by ring.
    assert (0 <= 4 * (1 + 4 * u24) * (d * b)) by (rewrite U; lra).
    rewrite U in *. lra.
Qed.

Lemma hyp_near : forall x y xf yf, Rabs (xf - x) <= u24 * Rabs x -> Rabs (yf - y) <= u24 * Rabs y ->
  Rabs (r32 (r64 (sqrt (r64 (r64 (xf * xf) + r64 (yf * yf))))) - hyp x y) <= 7 * u24 * hyp x y + 4 * bpow radix2 (-75).
Proof.
  intros x y xf yf HX HY. assert (U : u24 = / 16777216) by reflexivity. apply rel_square in HX, HY.
  destruct (squares xf yf) as (S1 & S2 & S3). cbv zeta in *. set (S' := r64 (r64 (xf * xf) + r64 (yf * yf))) in *.
  assert (S0 : 0 <= x * x + y * y) by (pose proof (Rle_0_sqr x); pose proof (Rle_0_sqr y); unfold Rsqr in *; lra).
  assert (K : Rabs (S' - (x * x + y * y)) <= 4 * u24 * (x * x + y * y) + 4 * eta).
  { apply Rabs_le_inv in S1. apply Rabs_le. rewrite U in *. lra. }
  pose proof (sqrt_near _ _ S0 S3 K) as W. fold (hyp x y) in W. destruct (hyp_sq x y) as [D0 _]. set (d := hyp x y) in *.
  pose proof (sqrt_pos S') as W0. set (w := sqrt S') in *.
  pose proof (r64_error w) as E1. pose proof (r32_error (r64 w)) as E2. rewrite (Rabs_pos_eq w W0) in E1.
  assert (W64 : 0 <= r64 w) by (apply rnd_ge0; [reflexivity|exact W0]). rewrite (Rabs_pos_eq _ W64) in E2.
  assert (EB : eta <= / 4 * bpow radix2 (-75)).
  { rewrite eta_root. apply Rmult_le_compat_r; [apply bpow_ge_0|]. change (bpow radix2 (-75)) with (/ 37778931862957161709568). lra. }
  assert (U53 : u53 <= u24 * / 1024) by (unfold u53, u24; lra).
  pose proof (bpow_gt_0 radix2 (-75)) as B0. set (b := bpow radix2 (-75)) in *. clearbody b.
  assert (UW : u53 * w <= u24 * / 1024 * w) by (apply Rmult_le_compat_r; assumption).
  clearbody w d. apply Rabs_le_inv in E1, E2, W. apply Rabs_le. rewrite U in *. lra.
Qed.

(** ** One segment *)
Section FProj.
Variable acosf : float32 -> float32.
Let A := ieee acosf.
Local Existing Instance A.

Lemma clamp_value : forall x : float32, is_finite x = true -> unit32 (clamp01 x) /\ B2R (clamp01 x : float32) = unit_cut (B2R x).
Proof.
  intros x FX. assert (N : is_nan x = false) by (destruct x; try reflexivity; discriminate FX).
  pose proof (clamp_unit acosf x N) as K. split; [exact K|]. clear K.
  destruct (f0_fin acosf) as [Z1 Z2]. destruct (f1_fin acosf) as [O1 O2]. unfold clamp01, std_clamp. unfold A in *. cbn [fltb ieee].
  set (z := f0 (A := ieee acosf) : float32) in *. set (o := f1 (A := ieee acosf) : float32) in *. clearbody z o.
  destruct (unit_cut_cases (B2R x)) as [[L ->]|[[L ->]|[L ->]]].
  - destruct (Bltb x z) eqn:B1; [exact Z2|]. apply (ltb_false_R 24 128) in B1; [|exact FX|exact Z1].
    destruct (Bltb o x) eqn:B2; [apply (ltb_R 24 128) in B2; [lra|exact O1|exact FX]|lra].
  - destruct (Bltb x z) eqn:B1; [apply (ltb_R 24 128) in B1; [lra|exact FX|exact Z1]|].
    destruct (Bltb o x) eqn:B2; [apply (ltb_R 24 128) in B2; [lra|exact O1|exact FX]|reflexivity].
  - destruct (Bltb x z) eqn:B1; [apply (ltb_R 24 128) in B1; [lra|exact FX|exact Z1]|].
    destruct (Bltb o x) eqn:B2; [exact O2|]. apply (ltb_false_R 24 128) in B2; [lra|exact O1|exact FX].
Qed.

Lemma along_hyp : forall (q a b : Vec2 (A := ieee acosf)) t, far_along q a b t =
  hyp ((real32 (vx b) - real32 (vx a)) * t - (real32 (vx q) - real32 (vx a))) ((real32 (vy b) - real32 (vy a)) * t - (real32 (vy q) - real32 (vy a))).
Proof. intros q a b t. unfold far_along, hyp. f_equal. ring. Qed.
Lemma far_hyp : forall a b : Vec2 (A := ieee acosf), far a b = hyp (real32 (vx b) - real32 (vx a)) (real32 (vy b) - real32 (vy a)).
Proof. reflexivity. Qed.

Lemma diff_le : forall x y N, Rabs x <= N -> Rabs y <= N -> Rabs (x - y) <= 2 * N.
Proof. intros x y N HX HY. apply Rabs_le_inv in HX, HY. apply Rabs_le. lra. Qed.

Lemma seg_ratio : forall (a b q : Vec2 (A := ieee acosf)) N, within N a -> within N b -> within N q -> N <= bpow radix2 60 -> spread a b ->
  unit32 (nearest_point_on_segment a b q) /\
  forall t, 0 <= t <= 1 -> far_along q a b (B2R (nearest_point_on_segment a b q : float32)) <= far_along q a b t + 112 * u24 * N.
Proof.
  intros a b q N (S1 & S2 & S3 & S4) (C1 & C2 & C3 & C4) (W1 & W2 & W3 & W4) NB SP.
  assert (N0 : 0 <= N) by (eapply Rle_trans; [apply Rabs_pos|exact S3]).
  assert (U : u24 = / 16777216) by reflexivity.
  unfold nearest_point_on_segment. destruct (veqb a b) eqn:VE.
  { destruct (f0_fin acosf) as [Z1 Z2]. split; [split; [exact Z1|unfold A in *; rewrite Z2; lra]|]. intros t T.
    unfold veqb in VE. apply andb_prop in VE. destruct VE as [V1 V2]. unfold A in *. cbn [feqb ieee] in V1, V2.
    apply (eqb_R 24 128) in V1; [|exact S1|exact C1]. apply (eqb_R 24 128) in V2; [|exact S2|exact C2].
    rewrite !along_hyp. unfold real32 in *. rewrite V1, V2, !Rminus_eq_0, !Rmult_0_l. assert (0 <= 112 * u24 * N) by (rewrite U; lra). lra. }
  assert (FAR : bpow radix2 (-50) <= far a b).
  { destruct SP as [[E1 E2]|SP]; [|exact SP]. exfalso. unfold veqb in VE. unfold A in *. cbn [feqb ieee] in VE. unfold real32 in *.
    apply (eqb_R 24 128) in E1; [|exact S1|exact C1]. apply (eqb_R 24 128) in E2; [|exact S2|exact C2]. rewrite E1, E2 in VE. discriminate VE. }
  clear SP VE. rewrite far_hyp in FAR.
  setoid_rewrite along_hyp. unfold real32 in *. unfold A in *.
  assert (M : forall x, Rabs x <= N -> Rabs x <= bpow radix2 60) by (intros x X; lra).
  destruct (minus_moderate _ _ C1 S1 (M _ C3) (M _ S3)) as (X1 & X2 & X3). destruct (minus_moderate _ _ C2 S2 (M _ C4) (M _ S4)) as (Y1 & Y2 & Y3).
  destruct (minus_moderate _ _ W1 S1 (M _ W3) (M _ S3)) as (U1 & U2 & U3). destruct (minus_moderate _ _ W2 S2 (M _ W4) (M _ S4)) as (V1 & V2 & V3).
  pose proof (sub_rel _ _ C1 S1) as RX. pose proof (sub_rel _ _ C2 S2) as RY. pose proof (sub_rel _ _ W1 S1) as RU. pose proof (sub_rel _ _ W2 S2) as RV.
  rewrite <- X2 in RX. rewrite <- Y2 in RY. rewrite <- U2 in RU. rewrite <- V2 in RV.
  pose proof (diff_le _ _ _ C3 S3) as DX. pose proof (diff_le _ _ _ C4 S4) as DY. pose proof (diff_le _ _ _ W3 S3) as DU. pose proof (diff_le _ _ _ W4 S4) as DV.
  destruct (dot_moderate _ _ _ _ U1 V1 X1 Y1 U3 V3 X3 Y3) as [D1 D2]. destruct (dot_moderate _ _ _ _ X1 Y1 X1 Y1 X3 Y3 X3 Y3) as [E1 E2].
  cbn [vsub vdot vx vy fadd fmul fsub fdiv ieee].
  set (sx := Bminus mode_NE (vx b) (vx a) : float32) in *. set (sy := Bminus mode_NE (vy b) (vy a) : float32) in *.
  set (px := Bminus mode_NE (vx q) (vx a) : float32) in *. set (py := Bminus mode_NE (vy q) (vy a) : float32) in *.
  set (df := Bplus mode_NE (Bmult mode_NE px sx) (Bmult mode_NE py sy) : float32) in *. set (lf := Bplus mode_NE (Bmult mode_NE sx sx) (Bmult mode_NE sy sy) : float32) in *.
  set (gx := B2R (vx b) - B2R (vx a)) in *. set (gy := B2R (vy b) - B2R (vy a)) in *. set (hx := B2R (vx q) - B2R (vx a)) in *. set (hy := B2R (vy q) - B2R (vy a)) in *.
  clearbody gx gy hx hy.
  destruct (hyp_sq gx gy) as [L0 LL]. destruct (hyp_sq hx hy) as [P0 PP].
  pose proof (hyp_le _ _ _ DX DY) as LN. pose proof (hyp_le _ _ _ DU DV) as PN.
  assert (SC : forall c c', hyp (gx * c - hx) (gy * c - hy) <= hyp (gx * c' - hx) (gy * c' - hy) + hyp gx gy * Rabs (c - c')).
  { intros c c'. rewrite <- hyp_scale. replace (gx * c - hx) with (gx * c' - hx + gx * (c - c')) by ring. replace (gy * c - hy) with (gy * c' - hy + gy * (c - c')) by ring. apply hyp_tri. }
  set (Ld := hyp gx gy) in *. set (Pd := hyp hx hy) in *. clearbody Ld Pd.
  destruct (abs_le_far gx gy Ld L0 LL) as [LX LY]. destruct (abs_le_far hx hy Pd P0 PP) as [PX PY].
  assert (LP : 0 < Ld) by (pose proof (bpow_gt_0 radix2 (-50)); lra).
  assert (EL : eta <= u24 * / 4 * (Ld * Ld)).
  { apply Rle_trans with (u24 * / 4 * (bpow radix2 (-50) * bpow radix2 (-50))).
    - rewrite <- bpow_plus. change u24 with (bpow radix2 (-24)). change (/ 4) with (bpow radix2 (-2)). rewrite <- !bpow_plus. unfold eta. apply bpow_le. lia.
    - apply Rmult_le_compat_l; [rewrite U; lra|]. apply Rmult_le_compat; try apply bpow_ge_0; assumption. }
  pose proof (dot_error Pd Ld hx hy gx gy _ _ _ _ P0 L0 EL PX PY LX LY RU RV RX RY) as DE. rewrite <- D2 in DE.
  pose proof (dot_error Ld Ld gx gy gx gy _ _ _ _ L0 L0 EL LX LY LX LY RX RY RX RY) as LE. rewrite <- E2 in LE.
  assert (LE2 : Rabs (B2R lf - (gx * gx + gy * gy)) <= 10 * u24 * (Ld * Ld)) by (eapply Rle_trans; [exact LE|]; lra).
  assert (DB : Rabs (hx * gx + hy * gy) <= 2 * (Pd * Ld)).
  { eapply Rle_trans; [apply Rabs_triang|]. rewrite !Rabs_mult.
    assert (Rabs hx * Rabs gx <= Pd * Ld) by (apply Rmult_le_compat; try apply Rabs_pos; assumption).
    assert (Rabs hy * Rabs gy <= Pd * Ld) by (apply Rmult_le_compat; try apply Rabs_pos; assumption). lra. }
  destruct (quotient_error Pd Ld (hx * gx + hy * gy) (gx * gx + gy * gy) (B2R df) (B2R lf) LP P0 (eq_sym LL) DB DE LE2) as (LF & QE & QB).
  assert (QS : Rabs (B2R df / B2R lf) <= bpow radix2 120).
  { apply Rmult_le_reg_r with Ld; [exact LP|]. eapply Rle_trans; [exact QB|].
    apply Rle_trans with (12 * bpow radix2 60); [lra|]. apply Rle_trans with (bpow radix2 120 * bpow radix2 (-50)).
    - rewrite <- bpow_plus. apply Rle_trans with (bpow radix2 4 * bpow radix2 60); [apply Rmult_le_compat_r; [apply bpow_ge_0|]; change (bpow radix2 4) with 16; lra|].
      rewrite <- bpow_plus. apply bpow_le. lia.
    - apply Rmult_le_compat_l; [apply bpow_ge_0|exact FAR]. }
  assert (FM : fmt 24 128 (bpow radix2 120)) by (apply fmt_bpow; [reflexivity|lia]).
  destruct (div_fin 24 128 _ _ df lf D1 (Rgt_not_eq _ _ LF)) as [Q1 Q2]; [eapply small_fmt_bound; [reflexivity|exact FM|apply bpow_lt; lia|exact QS]|].
  destruct (clamp_value _ Q1) as [K1 K2]. split; [exact K1|]. intros t T. unfold A in *.
  eapply Rle_trans; [|apply Rplus_le_compat_r; apply (segment_min gx gy hx hy t); [rewrite <- LL; apply Rmult_lt_0_compat; assumption|exact T]].
  cbv zeta. set (T1 := (hx * gx + hy * gy) / (gx * gx + gy * gy)) in *.
  eapply Rle_trans; [apply (SC _ (unit_cut T1))|]. apply Rplus_le_compat_l.
  rewrite K2. clear K1 K2.
  apply Rle_trans with (Ld * Rabs (B2R (Bdiv mode_NE df lf) - T1)); [apply Rmult_le_compat_l; [exact L0|apply unit_cut_near]|].
  rewrite Q2. set (z := B2R df / B2R lf) in *. pose proof (r32_error z) as RE.
  pose proof (tri _ _ _ _ _ RE (Rle_refl (Rabs (z - T1)))) as TT.
  apply Rle_trans with (Ld * (u24 * Rabs z + eta + Rabs (z - T1))); [apply Rmult_le_compat_l; [exact L0|exact TT]|].
  assert (EU : eta <= u24) by (change u24 with (bpow radix2 (-24)); unfold eta; apply bpow_le; lia).
  assert (LEU : Ld * eta <= Ld * u24) by (apply Rmult_le_compat_l; [exact L0|exact EU]).
  replace (Ld * (u24 * Rabs z + eta + Rabs (z - T1))) with (u24 * (Rabs z * Ld) + Ld * eta + Rabs (z - T1) * Ld) by ring.
  set (zl := Rabs z * Ld) in *. rewrite U in *. lra.
Qed.

Lemma eta_N : forall N, bpow radix2 (-40) <= N -> eta <= u24 * / 64 * N /\ bpow radix2 (-75) <= u24 * / 64 * N.
Proof.
  intros N H. assert (K : bpow radix2 (-75) <= u24 * / 64 * bpow radix2 (-40)).
  { change u24 with (bpow radix2 (-24)). change (/ 64) with (bpow radix2 (-6)). rewrite <- !bpow_plus. apply bpow_le. lia. }
  assert (K2 : u24 * / 64 * bpow radix2 (-40) <= u24 * / 64 * N) by (apply Rmult_le_compat_l; [unfold u24; lra|exact H]).
  split; [|lra]. apply Rle_trans with (bpow radix2 (-75)); [unfold eta; apply bpow_le; lia|lra].
Qed.

Lemma coord_point : forall (a b rho : float32) N, is_finite a = true -> is_finite b = true -> Rabs (B2R a) <= N -> Rabs (B2R b) <= N -> unit32 rho ->
  bpow radix2 (-40) <= N <= bpow radix2 59 ->
  let w := Bplus mode_NE a (Bmult mode_NE rho (Bminus mode_NE b a)) in
  is_finite w = true /\ Rabs (B2R w - (B2R a + (B2R b - B2R a) * B2R rho)) <= 17 * u24 * N /\ Rabs (B2R w) <= 1001 / 1000 * N.
Proof.
  intros a b rho N FA FB LA LB (FR & R0 & R1) [N0 N1] w.
  assert (M : forall x, Rabs x <= N -> Rabs x <= bpow radix2 60) by (intros x X; apply Rle_trans with N; [exact X|apply Rle_trans with (bpow radix2 59); [exact N1|apply bpow_le; lia]]).
  destruct (minus_moderate _ _ FB FA (M _ LB) (M _ LA)) as (X1 & X2 & X3).
  assert (FM : forall k, (-149 <= k)%Z -> fmt 24 128 (bpow radix2 k)) by (intros k K; apply fmt_bpow; [reflexivity|lia]).
  assert (P1 : Rabs (B2R rho * B2R (Bminus mode_NE b a)) <= bpow radix2 61).
  { rewrite Rabs_mult, (Rabs_pos_eq (B2R rho)) by lra. pose proof (Rabs_pos (B2R (Bminus mode_NE b a))). set (z := Rabs (B2R (Bminus mode_NE b a))) in *. clearbody z.
    apply Rle_trans with (1 * z); [apply Rmult_le_compat_r; lra|lra]. }
  destruct (mult_fin 24 128 _ _ rho (Bminus mode_NE b a) FR X1) as [Y1 Y2]; [eapply small_fmt_bound; [reflexivity|apply (FM 61%Z); lia|apply bpow_lt; lia|exact P1]|].
  assert (P2 : Rabs (B2R a + B2R (Bmult mode_NE rho (Bminus mode_NE b a))) <= bpow radix2 62).
  { eapply Rle_trans; [apply Rabs_triang|]. apply Rle_trans with (bpow radix2 60 + bpow radix2 61).
    - apply Rplus_le_compat; [apply M; exact LA|]. rewrite Y2. apply rnd_abs_le; [reflexivity|apply FM; lia|exact P1].
    - change 62%Z with (1 + 61)%Z. rewrite (bpow_plus radix2 1 61). change (bpow radix2 1) with 2. assert (bpow radix2 60 <= bpow radix2 61) by (apply bpow_le; lia). lra. }
  destruct (plus_fin 24 128 _ _ a (Bmult mode_NE rho (Bminus mode_NE b a)) FA Y1) as [Z1 Z2]; [eapply small_fmt_bound; [reflexivity|apply (FM 62%Z); lia|apply bpow_lt; lia|exact P2]|].
  split; [exact Z1|]. unfold w. rewrite Z2, Y2, X2. clear -LA LB R0 R1 N0.
  pose proof (anchor_error (B2R a) (B2R b) (B2R rho) (B2R rho) (conj R0 R1) (conj R0 R1)) as K.
  rewrite Rminus_eq_0, Rabs_R0 in K. specialize (K ltac:(unfold u24; lra)). destruct (eta_N N N0) as [E _].
  assert (NP : 0 < N) by (pose proof (bpow_gt_0 radix2 (-40)); lra).
  assert (K2 : Rabs (r32 (B2R a + r32 (B2R rho * r32 (B2R b - B2R a))) - (B2R a + (B2R b - B2R a) * B2R rho)) <= 17 * u24 * N) by (eapply Rle_trans; [exact K|]; unfold u24 in *; lra).
  split; [exact K2|]. assert (S : Rabs (B2R a + (B2R b - B2R a) * B2R rho) <= N).
  { replace (B2R a + (B2R b - B2R a) * B2R rho) with (B2R a * (1 - B2R rho) + B2R b * B2R rho) by ring. apply Rabs_le_inv in LA, LB. apply Rabs_le. split; nra. }
  pose proof (size _ _ _ _ K2 S) as W. unfold u24 in *. lra.
Qed.

Lemma seg_point : forall (a b : Vec2 (A := ieee acosf)) (rho : float32) N, within N a -> within N b -> unit32 rho -> bpow radix2 (-40) <= N <= bpow radix2 59 ->
  within (1001 / 1000 * N) (interp_v a b rho) /\
  Rabs (real32 (vx (interp_v a b rho)) - (real32 (vx a) + (real32 (vx b) - real32 (vx a)) * B2R rho)) <= 17 * u24 * N /\
  Rabs (real32 (vy (interp_v a b rho)) - (real32 (vy a) + (real32 (vy b) - real32 (vy a)) * B2R rho)) <= 17 * u24 * N.
Proof.
  intros a b rho N (S1 & S2 & S3 & S4) (C1 & C2 & C3 & C4) UR NB.
  unfold within, interp_v. rewrite (clamp_id acosf _ UR). unfold A in *. cbn [vadd vscale vsub vx vy fadd fmul fsub ieee]. unfold real32 in *.
  destruct (coord_point _ _ rho N S1 C1 S3 C3 UR NB) as (X1 & X2 & X3). destruct (coord_point _ _ rho N S2 C2 S4 C4 UR NB) as (Y1 & Y2 & Y3).
  auto 10.
Qed.

Lemma dist_error : forall (q w : Vec2 (A := ieee acosf)) N, within N q -> within N w -> bpow radix2 (-40) <= N <= bpow radix2 60 ->
  is_finite (distance q w : float32) = true /\ Rabs (B2R (distance q w : float32) - far q w) <= 22 * u24 * N.
Proof.
  intros u v N (U1 & U2 & U3 & U4) (V1 & V2 & V3 & V4) [N0 N1]. rewrite far_hyp. unfold real32 in *. unfold A in *.
  assert (M : forall x, Rabs x <= N -> Rabs x <= bpow radix2 60) by (intros x X; lra).
  destruct (minus_moderate _ _ V1 U1 (M _ V3) (M _ U3)) as (X1 & X2 & X3). destruct (minus_moderate _ _ V2 U2 (M _ V4) (M _ U4)) as (Y1 & Y2 & Y3).
  destruct (magnitude_le acosf 61 (vsub v u) ltac:(lia)) as [F1 _]; [split; split; assumption|].
  cbn [distance magnitude vsub vx vy fhypot fsub ieee] in *.
  pose proof (sub_rel _ _ V1 U1) as RX. pose proof (sub_rel _ _ V2 U2) as RY. rewrite <- X2 in RX. rewrite <- Y2 in RY.
  pose proof (diff_le _ _ _ V3 U3) as DX. pose proof (diff_le _ _ _ V4 U4) as DY.
  set (dx := Bminus mode_NE (vx v) (vx u) : float32) in *. set (dy := Bminus mode_NE (vy v) (vy u) : float32) in *.
  destruct (hyp64_val dx dy X1 Y1) as (H1 & H2 & H3). split; [exact F1|]. rewrite H1 in F1 |- *. rewrite (d2f_inv _ H2 F1), H3.
  eapply Rle_trans; [apply hyp_near; [exact RX|exact RY]|]. pose proof (hyp_le _ _ _ DX DY) as HL. destruct (eta_N N N0) as [_ E].
  pose proof (bpow_gt_0 radix2 (-40)) as NP. set (h := hyp _ _) in *. unfold u24 in *. lra.
Qed.

Lemma seg_dist : forall (a b q : Vec2 (A := ieee acosf)) (rho : float32) N, within N a -> within N b -> within N q -> unit32 rho -> bpow radix2 (-40) <= N <= bpow radix2 59 ->
  is_finite (distance q (interp_v a b rho) : float32) = true /\ Rabs (B2R (distance q (interp_v a b rho) : float32) - far_along q a b (B2R rho)) <= 48 * u24 * N.
Proof.
  intros a b q rho N WA WB WQ UR NB. destruct (seg_point a b rho N WA WB UR NB) as (W & E1 & E2). destruct NB as [N0 N1].
  assert (NP : 0 < N) by (pose proof (bpow_gt_0 radix2 (-40)); lra).
  destruct (dist_error q (interp_v a b rho) (1001 / 1000 * N)) as [F K].
  - destruct WQ as (Q1 & Q2 & Q3 & Q4). repeat split; try assumption; lra.
  - exact W.
  - split; [lra|]. change 60%Z with (1 + 59)%Z. rewrite bpow_plus. change (bpow radix2 1) with 2. lra.
  - split; [exact F|]. rewrite far_hyp in K.
    set (w := interp_v a b rho) in *. clearbody w. set (d := B2R (distance q w : float32)) in *. clearbody d.
    assert (S1 : Rabs (real32 (vx w) - real32 (vx q) - (real32 (vx a) + (real32 (vx b) - real32 (vx a)) * B2R rho - real32 (vx q))) <= 17 * u24 * N).
    { eapply Rle_trans; [|exact E1]. apply Req_le. f_equal. ring. }
    assert (S2 : Rabs (real32 (vy w) - real32 (vy q) - (real32 (vy a) + (real32 (vy b) - real32 (vy a)) * B2R rho - real32 (vy q))) <= 17 * u24 * N).
    { eapply Rle_trans; [|exact E2]. apply Req_le. f_equal. ring. }
    pose proof (hyp_shift _ _ _ _ _ S1 S2) as T1. rewrite Rabs_minus_sym in S1, S2. pose proof (hyp_shift _ _ _ _ _ S1 S2) as T2.
    unfold far_along. fold (hyp (real32 (vx a) + (real32 (vx b) - real32 (vx a)) * B2R rho - real32 (vx q)) (real32 (vy a) + (real32 (vy b) - real32 (vy a)) * B2R rho - real32 (vy q))).
    apply Rabs_le_inv in K. apply Rabs_le. unfold u24 in *. lra.
Qed.

(** ** The polyline *)
Definition chained (raw : list (Result (A := ieee acosf))) : Prop :=
  forall x y, In (x, y) (Props_Proj.segments raw) -> spread (r_pos x) (r_pos y).

Definition best_of (N : R) (q : Vec2 (A := ieee acosf)) (past : list (Result * Result)) (b : best) : Prop :=
  match b with
  | None => past = []
  | Some (c, d) => In (pj_a c, pj_b c) past /\ unit32 (pj_ratio c) /\ is_finite (d : float32) = true /\
      Rabs (B2R (d : float32) - far_along q (r_pos (pj_a c)) (r_pos (pj_b c)) (B2R (pj_ratio c : float32))) <= 48 * u24 * N /\
      forall x y t, In (x, y) past -> 0 <= t <= 1 -> B2R (d : float32) <= far_along q (r_pos x) (r_pos y) t + 160 * u24 * N
  end.

Lemma segments_cons : forall {X : Type} (x y : X) l, Props_Proj.segments (x :: y :: l) = (x, y) :: Props_Proj.segments (y :: l).
Proof. reflexivity. Qed.

Lemma closest_loop : forall N (q : Vec2 (A := ieee acosf)) raw past b, within N q -> Forall (fun r => within N (r_pos r)) raw -> chained raw ->
  bpow radix2 (-40) <= N <= bpow radix2 59 -> best_of N q past b ->
  best_of N q (past ++ Props_Proj.segments raw) (project_closest_loop q raw b).
Proof.
  intros N q raw past b WQ. revert past b. induction raw as [|x [|y l] IH]; intros past b WR CH NB BO.
  - cbn. rewrite app_nil_r. exact BO.
  - cbn. rewrite app_nil_r. exact BO.
  - rewrite segments_cons. pose proof (Forall_inv WR) as WX. pose proof (Forall_inv_tail WR) as WT. pose proof (Forall_inv WT) as WY. cbv beta in WX, WY.
    assert (SP : spread (r_pos x) (r_pos y)) by (apply CH; rewrite segments_cons; left; reflexivity).
    assert (N60 : N <= bpow radix2 60) by (apply Rle_trans with (bpow radix2 59); [apply NB|apply bpow_le; lia]).
    destruct (seg_ratio _ _ q N WX WY WQ N60 SP) as [R1 R2]. destruct (seg_dist _ _ q _ N WX WY WQ R1 NB) as [D1 D2].
    cbn [project_closest_loop].
    set (rho := nearest_point_on_segment (r_pos x) (r_pos y) q) in *. set (d := distance q (interp_v (r_pos x) (r_pos y) rho)) in *.
    clearbody rho d. replace (past ++ (x, y) :: Props_Proj.segments (y :: l)) with ((past ++ [(x, y)]) ++ Props_Proj.segments (y :: l)) by (rewrite <- app_assoc; reflexivity).
    apply IH; [exact WT|intros u v I1; apply CH; rewrite segments_cons; right; exact I1|exact NB|].
    assert (NEW : forall t, 0 <= t <= 1 -> B2R (d : float32) <= far_along q (r_pos x) (r_pos y) t + 160 * u24 * N).
    { intros t T. specialize (R2 t T). apply Rabs_le_inv in D2. unfold A in *. lra. }
    destruct b as [[c bd]|].
    + destruct BO as (B1 & B2 & B3 & B4 & B5). unfold A in *. cbn [fleb ieee] in *. destruct (Bleb d bd) eqn:LE.
      * apply (leb_R 24 128) in LE; [|exact D1|exact B3]. cbn [best_of pj_a pj_b pj_ratio]. split; [apply in_or_app; right; left; reflexivity|]. repeat split; try assumption; try apply R1.
        intros u v t I1 T. apply in_app_or in I1. destruct I1 as [I1|[I1|[]]]; [eapply Rle_trans; [exact LE|exact (B5 u v t I1 T)]|injection I1 as <- <-; apply NEW; exact T].
      * assert (LT : B2R bd <= B2R d).
        { destruct (Rle_or_lt (B2R d) (B2R bd)) as [K|K]; [|lra]. apply (leb_R 24 128) in K; [|exact D1|exact B3]. congruence. }
        cbn [best_of]. split; [apply in_or_app; left; exact B1|]. repeat split; try assumption; try apply B2.
        intros u v t I1 T. apply in_app_or in I1. destruct I1 as [I1|[I1|[]]]; [apply (B5 u v t I1 T)|injection I1 as <- <-; eapply Rle_trans; [exact LT|exact (NEW t T)]].
    + cbn [best_of] in BO. subst past. assert (LI : fleinf d = true) by (unfold A in *; destruct d; try discriminate D1; reflexivity).
      rewrite LI. cbn [best_of pj_a pj_b pj_ratio app]. split; [left; reflexivity|]. repeat split; try assumption; try apply R1.
      intros u v t [I1|[]] T. injection I1 as <- <-. apply NEW; exact T.
Qed.
(** ** Angles *)
Definition off (e x y : R) : Prop := exists k : Z, Rabs (y - x - T2pi * IZR k) <= e.
Lemma off_trans : forall e1 e2 x y z, off e1 x y -> off e2 y z -> off (e1 + e2) x z.
Proof.
  intros e1 e2 x y z [k1 H1] [k2 H2]. exists (k1 + k2)%Z. rewrite plus_IZR. apply Rabs_le_inv in H1, H2. apply Rabs_le. lra.
Qed.
Lemma off_le : forall e e' x y, off e x y -> e <= e' -> off e' x y.
Proof. intros e e' x y [k H] L. exists k. lra. Qed.
Lemma off_refl : forall e x, 0 <= e -> off e x x.
Proof. intros e x E. exists 0%Z. replace (x - x - T2pi * IZR 0) with 0 by (cbn; ring). rewrite Rabs_R0. exact E. Qed.
Lemma off_sym : forall e x y, off e x y -> off e y x.
Proof. intros e x y [k H]. exists (- k)%Z. rewrite opp_IZR. apply Rabs_le_inv in H. apply Rabs_le. lra. Qed.
Lemma off_shift : forall e x y c, off e x y -> off e (x + c) (y + c).
Proof. intros e x y c [k H]. exists k. replace (y + c - (x + c) - T2pi * IZR k) with (y - x - T2pi * IZR k) by ring. exact H. Qed.

Lemma two_roundings : forall x, Rabs x <= 18 -> Rabs (r32 (r64 x) - x) <= 19 * u24.
Proof.
  intros x X. pose proof (r64_error x) as E1. pose proof (r32_error (r64 x)) as E2. pose proof eta_small as ES. pose proof eta_0 as E0.
  pose proof (size _ _ _ _ E1 X) as S. assert (U53 : u53 <= u24 * / 1024) by (unfold u53, u24; lra). assert (UP : 0 <= u53) by (unfold u53; lra).
  assert (EU : eta <= u24 * / 1024) by (change u24 with (bpow radix2 (-24)); change (/ 1024) with (bpow radix2 (-10)); rewrite <- bpow_plus; unfold eta; apply bpow_le; lia).
  pose proof (Rabs_pos x) as X0.
  assert (K1 : u53 * Rabs x <= u24 * / 1024 * 18) by (apply Rmult_le_compat; assumption).
  pose proof (tri _ _ _ _ _ E2 E1) as T. eapply Rle_trans; [exact T|].
  assert (K2 : u24 * Rabs (r64 x) <= u24 * (18 + 1)) by (apply Rmult_le_compat_l; [unfold u24; lra|unfold u24 in *; lra]).
  assert (K3 : Rabs (r64 x) <= 18 + / 512) by (unfold u24 in *; lra).
  assert (K4 : u24 * Rabs (r64 x) <= u24 * (18 + / 512)) by (apply Rmult_le_compat_l; [unfold u24; lra|exact K3]). unfold u24 in *. lra.
Qed.

Lemma normalize_off : forall fuel (a b : float32), is_finite a = true -> -5 <= B2R a <= 11 -> normalize_angle fuel a = Ret b ->
  in_turn b /\ off (38 * u24) (B2R a) (B2R b).
Proof.
  intros fuel a b FA RA H. pose proof turn_order as TO. pose proof (normalize_ret acosf _ _ _ H) as [_ IT].
  split; [apply IT; destruct a; try reflexivity; discriminate FA|]. clear IT. unfold normalize_angle in H.
  assert (UP : forall fl (x : float32) y, is_finite x = true -> -5 <= B2R x <= 11 -> norm_up fl x = Ret y ->
    is_finite y = true /\ -5 <= B2R y <= 11 /\ off (19 * u24) (B2R x) (B2R y) /\ (0 <= B2R y)).
  { intros fl x y FX RX N. destruct (f0_fin acosf) as [Z1 Z2]. destruct fl as [|fl]; cbn [norm_up] in N.
    - match type of N with context [if ?b then _ else _] => destruct b eqn:L end; [discriminate N|]. injection N as <-. unfold A in *. cbn [fltb ieee] in L. apply (ltb_false_R 24 128) in L; [|exact FX|exact Z1].
      split; [exact FX|]. split; [exact RX|]. split; [apply off_refl; unfold u24; lra|lra].
    - match type of N with context [if ?b then _ else _] => destruct b eqn:L end; unfold A in *; cbn [fltb ieee] in L.
      + apply (ltb_R 24 128) in L; [|exact FX|exact Z1].
        destruct (turn_up acosf x FX) as [F1 E1]; [apply small_120 with 11%Z; [lia|]; apply Rabs_le; lra|].
        match type of F1 with is_finite ?u = true => set (w := u) in * end. clearbody w. cbn [d2f dadd f2d ieee] in *.
        assert (B1 : Rabs (B2R x + T2pi) <= 18) by (apply Rabs_le; lra). pose proof (two_roundings _ B1) as R1. rewrite <- E1 in R1.
        assert (B2 : 1 <= B2R w <= 7) by (apply Rabs_le_inv in R1; unfold u24 in R1; lra).
        rewrite (norm_up_stop acosf) in N by (right; apply nonneg_fin; [exact F1|lra]). injection N as <-.
        split; [exact F1|]. split; [lra|]. split; [|lra]. exists 1%Z. eapply Rle_trans; [|exact R1]. apply Req_le. f_equal. lra.
      + apply (ltb_false_R 24 128) in L; [|exact FX|exact Z1]. injection N as <-.
        split; [exact FX|]. split; [exact RX|]. split; [apply off_refl; unfold u24; lra|lra]. }
  assert (DN : forall fl (x : float32) y, is_finite x = true -> 0 <= B2R x <= 11 -> norm_down fl x = Ret y -> off (19 * u24) (B2R x) (B2R y)).
  { intros fl x y FX RX N. destruct fl as [|fl]; cbn [norm_down] in N.
    - match type of N with context [if ?b then _ else _] => destruct b end; [discriminate N|]. injection N as <-. apply off_refl. unfold u24; lra.
    - match type of N with context [if ?b then _ else _] => destruct b eqn:L end; [|injection N as <-; apply off_refl; unfold u24; lra].
      apply (gt_turn acosf x FX) in L.
      destruct (turn_down acosf x FX) as [F1 E1]; [apply small_120 with 11%Z; [lia|]; apply Rabs_le; lra|].
      unfold A in *. match type of F1 with is_finite ?u = true => set (w := u) in * end. clearbody w. cbn [d2f dsub f2d ieee] in *.
      assert (B1 : Rabs (B2R x - T2pi) <= 18) by (apply Rabs_le; lra). pose proof (two_roundings _ B1) as R1. rewrite <- E1 in R1.
      assert (B2 : B2R w <= L2pi) by (apply Rabs_le_inv in R1; unfold u24 in R1; lra).
      rewrite (norm_down_stop acosf) in N by (right; auto). injection N as <-.
      exists (-1)%Z. eapply Rle_trans; [|exact R1]. apply Req_le. f_equal. lra. }
  destruct (@norm_up A fuel a) as [c| |] eqn:N1; try discriminate H. cbn [obind] in H.
  destruct (UP _ _ _ FA RA N1) as (F1 & R1 & O1 & P1). pose proof (DN _ _ _ F1 (conj P1 (proj2 R1)) H) as O2.
  eapply off_le; [eapply off_trans; [exact O1|exact O2]|]. unfold u24; lra.
Qed.

Lemma angle_off : forall fuel (s0 e0 rho r : float32), in_turn_closed s0 -> in_turn_closed e0 -> unit32 rho -> interp_angle fuel s0 e0 rho = Ret r ->
  in_turn r /\ exists d, Rabs d <= T2pi / 2 + 30 * u24 /\ off (100 * u24) (B2R s0 + d) (B2R e0) /\ off (215 * u24) (B2R s0 + d * B2R rho) (B2R r).
Proof.
  intros fuel s0 e0 rho r [FS0 RS0] [FE0 RE0] UR H. pose proof turn_order as TO. unfold interp_angle in H.
  destruct (@normalize_angle A fuel s0) as [s| |] eqn:NS; try discriminate H. cbn [obind] in H.
  destruct (@normalize_angle A fuel e0) as [e| |] eqn:NE; try discriminate H. cbn [obind] in H.
  apply normalize_off in NS; [|exact FS0|lra]. apply normalize_off in NE; [|exact FE0|lra]. destruct NS as [IS OS]. destruct NE as [IE OE].
  pose proof (adjust_bound acosf s e IS IE) as AB. cbv zeta in AB. destruct IS as [FS RS]. destruct IE as [FE RE].
  destruct (minus_fin 24 128 _ _ e s FE FS) as [FD ED].
  { apply small_le32. apply Rle_trans with 7; [apply Rabs_le; lra|]. apply IZR_le. lia. }
  destruct (f2d_fin _ FD) as [FD2 ED2]. destruct pi_fin as [FP EP].
  pose proof (sub_rel _ _ FE FS) as DR. rewrite <- ED in DR.
  assert (DR2 : Rabs (B2R (Bminus mode_NE e s) - (B2R e - B2R s)) <= 7 * u24).
  { eapply Rle_trans; [exact DR|]. rewrite Rmult_comm. apply Rmult_le_compat_r; [unfold u24; lra|]. apply Rabs_le. lra. }
  assert (AE : Rabs (B2R e) <= IZR (2 ^ 120)) by (apply small_120 with 7%Z; [lia|]; apply Rabs_le; lra).
  match type of H with normalize_angle _ (interp_f _ ?x _) = _ => set (e' := x) in * end.
  assert (K : Rabs (B2R (e' : float32) - B2R s) <= T2pi / 2 + 30 * u24 /\ off (19 * u24) (B2R (e' : float32)) (B2R e)).
  { unfold e'. clear e' H AB. unfold A in *. cbn [dltb f2d dneg kPi fsub ieee]. apply Rabs_le_inv in DR2. clear DR.
    destruct (Bltb (b32_to_b64 (Bminus mode_NE e s)) (Bopp b_pi)) eqn:L1.
    - apply ltb_R in L1; [|exact FD2|rewrite is_finite_Bopp; exact FP]. rewrite B2R_Bopp, EP, ED2 in L1.
      destruct (turn_up acosf e FE AE) as [F1 E1]. cbn [d2f dadd f2d ieee] in F1, E1 |- *.
      assert (B1 : Rabs (B2R e + T2pi) <= 18) by (apply Rabs_le; lra). pose proof (two_roundings _ B1) as R1. rewrite <- E1 in R1. clear E1.
      match type of R1 with context [B2R ?w - _] => set (w1 := B2R w) in * end.
      split; [apply Rabs_le_inv in R1; apply Rabs_le; unfold u24 in *; lra|]. exists (-1)%Z. rewrite <- Rabs_Ropp. eapply Rle_trans; [|exact R1]. apply Req_le. f_equal. lra.
    - apply ltb_false_R in L1; [|exact FD2|rewrite is_finite_Bopp; exact FP]. rewrite B2R_Bopp, EP, ED2 in L1.
      destruct (Bltb b_pi (b32_to_b64 (Bminus mode_NE e s))) eqn:L2.
      + apply ltb_R in L2; [|exact FP|exact FD2]. rewrite EP, ED2 in L2.
        destruct (turn_down acosf e FE AE) as [F1 E1]. cbn [d2f dsub f2d ieee] in F1, E1 |- *.
        assert (B1 : Rabs (B2R e - T2pi) <= 18) by (apply Rabs_le; lra). pose proof (two_roundings _ B1) as R1. rewrite <- E1 in R1. clear E1.
        match type of R1 with context [B2R ?w - _] => set (w1 := B2R w) in * end.
        split; [apply Rabs_le_inv in R1; apply Rabs_le; unfold u24 in *; lra|]. exists 1%Z. rewrite <- Rabs_Ropp. eapply Rle_trans; [|exact R1]. apply Req_le. f_equal. lra.
      + apply ltb_false_R in L2; [|exact FP|exact FD2]. rewrite EP, ED2 in L2.
        split; [apply Rabs_le; unfold u24 in *; lra|]. apply off_refl. unfold u24; lra. }
  destruct K as [K1 K2]. assert (AB' : is_finite (e' : float32) = true /\ -4 <= B2R (e' : float32) <= 10) by exact AB. destruct AB' as [FE' RE']. clear AB. clearbody e'.
  assert (NR : is_nan (rho : float32) = false) by (destruct UR as [UR _]; destruct rho; try reflexivity; discriminate UR).
  destruct (interp_bound acosf s e' rho FS FE' NR ltac:(lra) RE') as [FI RI].
  destruct (interp_fin acosf s e' rho 10 FS FE' NR) as [_ EI].
  { apply Rabs_le; lra. } { apply Rabs_le; lra. } { apply IZR_le. lia. }
  rewrite (clamp_id acosf _ UR) in EI.
  apply normalize_off in H; [|exact FI|exact RI]. destruct H as [IR OR]. split; [exact IR|].
  exists (B2R (e' : float32) - B2R s). split; [exact K1|]. destruct UR as (_ & R0 & R1).
  split.
  - eapply off_le; [eapply off_trans; [apply off_shift; exact OS|]|].
    + replace (B2R s + (B2R (e' : float32) - B2R s)) with (B2R (e' : float32)) by ring. eapply off_trans; [exact K2|apply off_sym; exact OE].
    + unfold u24; lra.
  - eapply off_le; [eapply off_trans; [apply off_shift; exact OS|eapply off_trans; [|exact OR]]|].
    + exists 0%Z. rewrite Rmult_0_r, Rminus_0_r. unfold A in *. rewrite EI.
      pose proof (anchor_error (B2R s) (B2R (e' : float32)) (B2R rho) (B2R rho) (conj R0 R1) (conj R0 R1)) as AN.
      rewrite Rminus_eq_0, Rabs_R0 in AN. specialize (AN ltac:(unfold u24; lra)).
      rewrite (Rmult_comm (r32 _) (B2R rho)). eapply Rle_trans; [exact AN|].
      assert (E1 : eta <= u24 * / 1024) by (change u24 with (bpow radix2 (-24)); change (/ 1024) with (bpow radix2 (-10)); rewrite <- bpow_plus; unfold eta; apply bpow_le; lia).
      assert (S1 : Rabs (B2R s) <= 63 / 10) by (apply Rabs_le; lra). assert (S2 : Rabs (B2R (e' : float32)) <= 10) by (apply Rabs_le; lra).
      apply Rle_trans with (135 * u24); [unfold u24 in *; lra|apply Rle_refl].
    + unfold u24; lra.
Qed.

Lemma final_angle : forall fuel (o r : float32), in_turn_closed o -> interp_angle fuel o o f1 = Ret r -> in_turn r /\ off (38 * u24) (B2R o) (B2R r).
Proof.
  intros fuel o r [FO RO] H. pose proof turn_order as TO. unfold interp_angle in H.
  destruct (@normalize_angle A fuel o) as [s| |] eqn:NS; try discriminate H. cbn [obind] in H.
  apply normalize_off in NS; [|exact FO|lra]. destruct NS as [IS OS]. pose proof IS as [FS RS].
  destruct (minus_fin 24 128 _ _ s s FS FS) as [FD ED].
  { apply small_le32. rewrite Rminus_eq_0, Rabs_R0. apply IZR_le. lia. }
  rewrite Rminus_eq_0, rnd_0 in ED. destruct (f2d_fin _ FD) as [FD2 ED2]. destruct pi_fin as [FP EP]. rewrite ED in ED2.
  match type of H with normalize_angle _ (interp_f _ ?x _) = _ => assert (SX : x = s) end.
  { unfold A in *. cbn [dltb f2d dneg kPi fsub ieee].
    destruct (Bltb (b32_to_b64 (Bminus mode_NE s s)) (Bopp b_pi)) eqn:L1.
    { apply ltb_R in L1; [|exact FD2|rewrite is_finite_Bopp; exact FP]. rewrite B2R_Bopp, EP, ED2 in L1. lra. }
    destruct (Bltb b_pi (b32_to_b64 (Bminus mode_NE s s))) eqn:L2; [|reflexivity].
    apply ltb_R in L2; [|exact FP|exact FD2]. rewrite EP, ED2 in L2. lra. }
  rewrite SX in H. clear SX. destruct (f1_fin acosf) as [O1 O2].
  assert (UO : unit32 (f1 (A := A))) by (split; [exact O1|unfold A in *; rewrite O2; lra]).
  assert (NO : is_nan (f1 (A := A) : float32) = false) by (unfold A in *; destruct f1; try reflexivity; discriminate O1).
  destruct (interp_fin acosf s s (f1 (A := ieee acosf)) 10 FS FS NO) as [FI EI].
  { apply Rabs_le; lra. } { apply Rabs_le; lra. } { apply IZR_le. lia. }
  rewrite Rminus_eq_0, rnd_0, Rmult_0_l, rnd_0, Rplus_0_r in EI. rewrite rnd_id in EI by apply fmt_B2R.
  unfold A in *. match type of H with normalize_angle _ ?x = _ => set (w := x) in * end. clearbody w.
  unfold normalize_angle in H. rewrite (norm_up_stop acosf) in H by (right; apply nonneg_fin; [exact FI|rewrite EI; lra]). cbn [obind] in H.
  rewrite (norm_down_stop acosf) in H by (right; split; [exact FI|rewrite EI; lra]). injection H as <-.
  split; [split; [exact FI|rewrite EI; exact RS]|]. rewrite EI. exact OS.
Qed.

(** ** Pressure and tilt *)
Lemma value_near : forall a b rho : float32, plain_value a -> plain_value b -> unit32 rho ->
  let v := (if fltb a f0 || fltb b f0 then fm1 else interp_f a b rho) : float32 in
  is_finite v = true /\ 0 <= B2R v <= bpow radix2 62 /\ Rabs (B2R v - (B2R a + (B2R b - B2R a) * B2R rho)) <= 8 * u24 * (B2R a + B2R b) + 5 * eta.
Proof.
  intros a b rho [FA RA] [FB RB] UR v. unfold real32 in *. destruct (f0_fin acosf) as [Z1 Z2].
  assert (LT : forall x : float32, is_finite x = true -> 0 <= B2R x -> fltb (x : F (Arith := A)) f0 = false).
  { intros x FX RX. unfold A in *. cbn [fltb ieee]. apply (ltb_false_R 24 128); [exact FX|exact Z1|]. change float32 with (binary_float 24 128) in *. rewrite Z2. exact RX. }
  assert (V : v = (interp_f a b rho : float32)).
  { unfold v. rewrite (LT a FA (proj1 RA)), (LT b FB (proj1 RB)). reflexivity. }
  rewrite V. clear V v. pose proof UR as (FR & R0 & R1).
  assert (NR : is_nan (rho : float32) = false) by (destruct rho; try reflexivity; discriminate FR).
  assert (B60 : bpow radix2 60 <= IZR (2 ^ 124)) by (change (2 ^ 124)%Z with (radix2 ^ 124)%Z; rewrite (IZR_Zpower radix2) by lia; apply bpow_le; lia).
  destruct (interp_fin acosf a b rho (bpow radix2 60) FA FB NR) as [FI EI]; [rewrite Rabs_pos_eq; apply RA|rewrite Rabs_pos_eq; apply RB|exact B60|].
  rewrite (clamp_id acosf _ UR) in EI. unfold A in *. split; [exact FI|].
  pose proof (anchor_error (B2R a) (B2R b) (B2R rho) (B2R rho) (conj R0 R1) (conj R0 R1)) as AN.
  rewrite Rminus_eq_0, Rabs_R0 in AN. specialize (AN ltac:(unfold u24; lra)). rewrite (Rabs_pos_eq (B2R a)), (Rabs_pos_eq (B2R b)) in AN by (apply RA || apply RB).
  rewrite (Rmult_comm (B2R rho)), <- EI in AN. split; [|exact AN]. split.
  - rewrite EI. apply rnd_ge0; [reflexivity|].
    destruct (Rle_lt_dec (B2R a) (B2R b)) as [L|L].
    + assert (D : 0 <= r32 (B2R b - B2R a)) by (apply rnd_ge0; [reflexivity|lra]).
      assert (P : 0 <= r32 (r32 (B2R b - B2R a) * B2R rho)) by (apply rnd_ge0; [reflexivity|apply Rmult_le_pos; assumption]). lra.
    + assert (D : - B2R a <= r32 (B2R b - B2R a)) by (apply rnd_ge_fmt; [reflexivity|apply fmt_opp; apply fmt_B2R|lra]).
      assert (P : - B2R a <= r32 (r32 (B2R b - B2R a) * B2R rho)) by (apply rnd_ge_fmt; [reflexivity|apply fmt_opp; apply fmt_B2R|nra]). lra.
  - match type of AN with context [B2R ?w - _] => set (z := B2R w) in * end. apply Rabs_le_inv in AN.
    assert (E1 : eta <= bpow radix2 60) by (unfold eta; apply bpow_le; lia).
    assert (S : B2R a + (B2R b - B2R a) * B2R rho <= bpow radix2 60) by (replace (B2R a + (B2R b - B2R a) * B2R rho) with (B2R a * (1 - B2R rho) + B2R b * B2R rho) by ring; nra).
    assert (E2 : 5 * eta <= bpow radix2 60) by (apply Rle_trans with (bpow radix2 3 * eta); [change (bpow radix2 3) with 8; pose proof eta_0; lra|unfold eta; rewrite <- bpow_plus; apply bpow_le; lia]).
    replace (bpow radix2 62) with (4 * bpow radix2 60) by (change 62%Z with (2 + 60)%Z; rewrite (bpow_plus radix2 2 60); reflexivity). unfold u24 in *. lra.
Qed.

Lemma value_same : forall x : float32, is_finite x = true -> 0 <= B2R x <= bpow radix2 62 ->
  let v := (if fltb x f0 || fltb x f0 then fm1 else interp_f x x f1) : float32 in is_finite v = true /\ B2R v = B2R x.
Proof.
  intros x FX RX v. destruct (f0_fin acosf) as [Z1 Z2]. destruct (f1_fin acosf) as [O1 O2].
  assert (V : v = (interp_f x x f1 : float32)).
  { unfold v. replace (fltb (x : F (Arith := A)) f0) with false; [reflexivity|]. symmetry. unfold A in *. cbn [fltb ieee]. apply (ltb_false_R 24 128); [exact FX|exact Z1|]. rewrite Z2. apply RX. }
  rewrite V. clear V v.
  assert (UO : unit32 (f1 (A := A))) by (split; [exact O1|unfold A in *; rewrite O2; lra]).
  assert (NO : is_nan (f1 (A := A) : float32) = false) by (unfold A in *; destruct f1; try reflexivity; discriminate O1).
  assert (B60 : bpow radix2 62 <= IZR (2 ^ 124)) by (change (2 ^ 124)%Z with (radix2 ^ 124)%Z; rewrite (IZR_Zpower radix2) by lia; apply bpow_le; lia).
  destruct (interp_fin acosf x x (f1 (A := ieee acosf)) (bpow radix2 62) FX FX NO) as [FI EI]; [rewrite Rabs_pos_eq; apply RX|rewrite Rabs_pos_eq; apply RX|exact B60|].
  split; [exact FI|]. unfold A in *. rewrite EI. rewrite Rminus_eq_0, rnd_0, Rmult_0_l, rnd_0, Rplus_0_r. apply rnd_id. apply fmt_B2R.
Qed.

(** ** From the projection to the result *)
Lemma coord_final : forall (o p tip : float32) N, is_finite o = true -> B2R o = 1 -> bpow radix2 (-40) <= N ->
  let r := Bplus mode_NE p (Bmult mode_NE o (Bminus mode_NE tip p)) in
  is_finite r = true -> Rabs (B2R r) <= N -> (is_finite p = true -> Rabs (B2R p) <= 1001 / 1000 * N) ->
  is_finite tip = true /\ is_finite p = true /\ Rabs (B2R tip) <= 1001 / 1000 * N /\ Rabs (B2R r - B2R tip) <= 4 * u24 * N.
Proof.
  intros o p tip N FO EO N0 r FR LR HP. unfold r in *. clear r.
  destruct (Props_FSpring.plus_inv _ _ FR) as (FP & FM & ER). destruct (Props_FSpring.mult_inv _ _ FM) as (_ & FD & EM). destruct (Props_FSpring.minus_inv _ _ FD) as (FT & _ & ED).
  specialize (HP FP). split; [exact FT|]. split; [exact FP|]. rewrite EO, Rmult_1_l in EM. rewrite rnd_id in EM by apply fmt_B2R. rewrite EM in ER. clear EM FM FO EO.
  rewrite ER in LR |- *. set (m := B2R (Bminus mode_NE tip p)) in *. clearbody m.
  pose proof (r32_error (B2R p + m)) as E1. pose proof (r32_error (B2R tip - B2R p)) as E2. rewrite <- ED in E2.
  destruct (eta_N N N0) as [EN _]. pose proof (bpow_gt_0 radix2 (-40)) as NP.
  set (s := B2R p + m) in *. set (w := B2R tip - B2R p) in *. set (rr := r32 s) in *. clearbody rr.
  assert (U : u24 = / 16777216) by reflexivity. rewrite U in *.
  assert (A1 : Rabs s <= 1001 / 1000 * N).
  { assert (T : Rabs s <= Rabs rr + Rabs (rr - s)) by (replace s with (rr + - (rr - s)) at 1 by ring; eapply Rle_trans; [apply Rabs_triang|rewrite Rabs_Ropp; lra]). lra. }
  assert (A2 : Rabs m <= 2002 / 1000 * N).
  { replace m with (s + - B2R p) by (unfold s; ring). eapply Rle_trans; [apply Rabs_triang|]. rewrite Rabs_Ropp. lra. }
  assert (A3 : Rabs w <= 2003 / 1000 * N).
  { assert (T : Rabs w <= Rabs m + Rabs (m - w)) by (replace w with (m + - (m - w)) at 1 by ring; eapply Rle_trans; [apply Rabs_triang|rewrite Rabs_Ropp; lra]). lra. }
  assert (A4 : Rabs (rr - B2R tip) <= 4 * / 16777216 * N).
  { replace (rr - B2R tip) with ((rr - s) + (m - w)) by (unfold s, w; ring). eapply Rle_trans; [apply Rabs_triang|]. lra. }
  split; [|exact A4]. replace (B2R tip) with (rr + - (rr - B2R tip)) by ring. eapply Rle_trans; [apply Rabs_triang|]. rewrite Rabs_Ropp. lra.
Qed.

Lemma along_shift : forall (q q' a b : Vec2 (A := ieee acosf)) t e, Rabs (real32 (vx q) - real32 (vx q')) <= e -> Rabs (real32 (vy q) - real32 (vy q')) <= e ->
  far_along q a b t <= far_along q' a b t + 3 / 2 * e.
Proof.
  intros q q' a b t e HX HY. apply hyp_shift.
  - eapply Rle_trans; [|exact HX]. rewrite <- Rabs_Ropp. apply Req_le. f_equal. ring.
  - eapply Rle_trans; [|exact HY]. rewrite <- Rabs_Ropp. apply Req_le. f_equal. ring.
Qed.

Lemma final_point : forall (q tip : Vec2 (A := ieee acosf)) N, bpow radix2 (-40) <= N ->
  within N (interp_v q tip f1) -> (is_finite (vx q : float32) = true -> is_finite (vy q : float32) = true -> within (1001 / 1000 * N) q) ->
  within (1001 / 1000 * N) tip /\ Rabs (real32 (vx (interp_v q tip f1)) - real32 (vx tip)) <= 4 * u24 * N /\
  Rabs (real32 (vy (interp_v q tip f1)) - real32 (vy tip)) <= 4 * u24 * N.
Proof.
  intros q tip N N0 W HQ. destruct (f1_fin acosf) as [O1 O2].
  assert (UO : unit32 (f1 (A := A))) by (split; [exact O1|unfold A in *; rewrite O2; lra]).
  unfold interp_v in *. unfold A in *. rewrite (clamp_id acosf _ UO) in W |- *. unfold within, real32 in *.
  cbn [vadd vscale vsub vx vy fadd fmul fsub ieee] in *. destruct W as (W1 & W2 & W3 & W4).
  set (o := f1 (A := ieee acosf) : float32) in *. clearbody o.
  assert (HP : is_finite (vx q) = true /\ is_finite (vy q) = true).
  { split; [destruct (Props_FSpring.plus_inv _ _ W1) as (P & _)|destruct (Props_FSpring.plus_inv _ _ W2) as (P & _)]; exact P. }
  destruct (HQ (proj1 HP) (proj2 HP)) as (_ & _ & Q3 & Q4).
  destruct (coord_final o _ _ N O1 O2 N0 W1 W3 (fun _ => Q3)) as (X1 & _ & X2 & X3). destruct (coord_final o _ _ N O1 O2 N0 W2 W4 (fun _ => Q4)) as (Y1 & _ & Y2 & Y3).
  auto 10.
Qed.

(** ** The stylus component's memory *)
Lemma segments_rel : forall {X Y : Type} (R : X -> Y -> Prop) l l', Forall2 R l l' ->
  Forall2 (fun p p' => R (fst p) (fst p') /\ R (snd p) (snd p')) (Props_Proj.segments l) (Props_Proj.segments l').
Proof.
  intros X Y R l l' H. induction H as [|x y l l' H1 H2 IH]; [constructor|]. destruct H2 as [|x2 y2 l l' H3 H4]; [constructor|].
  rewrite !segments_cons. constructor; [auto|exact IH].
Qed.
Lemma rel_left : forall {X Y : Type} (R : X -> Y -> Prop) l l' x, Forall2 R l l' -> In x l -> exists y, In y l' /\ R x y.
Proof. intros X Y R l l' x H. induction H as [|a b l l' H1 H2 IH]; intros []; [subst; exists b; split; [left; reflexivity|exact H1]|]. destruct (IH H) as (y & I1 & R1). exists y. split; [right; exact I1|exact R1]. Qed.
Lemma rel_right : forall {X Y : Type} (R : X -> Y -> Prop) l l' y, Forall2 R l l' -> In y l' -> exists x, In x l /\ R x y.
Proof. intros X Y R l l' y H. induction H as [|a b l l' H1 H2 IH]; intros []; [subst; exists a; split; [left; reflexivity|exact H1]|]. destruct (IH H) as (x & I1 & R1). exists x. split; [right; exact I1|exact R1]. Qed.

Lemma loop_struct : forall (q : Vec2 (A := ieee acosf)) raw b c d, project_closest_loop q raw b = Some (c, d) ->
  b = Some (c, d) \/ exists x y, In (x, y) (Props_Proj.segments raw) /\ c = mkProj x y (nearest_point_on_segment (r_pos x) (r_pos y) q).
Proof.
  intros q raw. induction raw as [|x [|y l] IH]; intros b c d H; [left; exact H|left; exact H|]. cbn [project_closest_loop] in H.
  apply IH in H. destruct H as [H|(u & v & I1 & E)]; [|right; exists u, v; split; [rewrite segments_cons; right; exact I1|exact E]].
  match type of H with (if ?b then _ else _) = _ => destruct b end; [|left; exact H].
  right. exists x, y. split; [rewrite segments_cons; left; reflexivity|]. congruence.
Qed.

Lemma ratio_unit : forall a b q : Vec2 (A := ieee acosf), is_nan (nearest_point_on_segment a b q : float32) = false -> unit32 (nearest_point_on_segment a b q).
Proof.
  intros a b q H. unfold nearest_point_on_segment in *. destruct (veqb a b).
  - destruct (f0_fin acosf) as [Z1 Z2]. split; [exact Z1|]. unfold A in *. rewrite Z2. lra.
  - cbv zeta in *. unfold A in *. match type of H with is_nan (clamp01 ?x) = _ => destruct (is_nan (x : float32)) eqn:E; [|apply (clamp_unit acosf _ E)] end.
    rewrite (clamp_nan acosf _ E) in H. discriminate H.
Qed.

Definition as_input (i : Input (A := ieee acosf)) (r : Result (A := ieee acosf)) : Prop := mem_of (i, i_pos i) r.
Record fmem (N : R) (l pts : list (Input (A := ieee acosf))) (sm : Stylus (A := ieee acosf)) : Prop := mkFmem {
  fm_pressure : (forall i, In i l -> plain_value (i_pressure i)) -> s_unk_pressure (sm_state sm) = false;
  fm_tilt : (forall i, In i l -> plain_value (i_tilt i)) -> s_unk_tilt (sm_state sm) = false;
  fm_orient : (forall i, In i l -> in_turn_closed (i_orient i)) -> s_unk_orient (sm_state sm) = false;
  fm_some : pts <> [];
  fm_in : forall x, In x pts -> In x l;
  fm_spread : spread_out N pts;
  fm_raw : Forall2 as_input pts (s_raw (sm_state sm)) \/
    s_raw (sm_state sm) = [] /\ s_unk_pressure (sm_state sm) = true /\ s_unk_tilt (sm_state sm) = true /\ s_unk_orient (sm_state sm) = true
}.

Definition value_ok (a b : float32) (t : R) (v : float32) : Prop := 0 <= B2R a + B2R b /\
  is_finite v = true /\ 0 <= B2R v <= bpow radix2 62 /\ Rabs (B2R v - (B2R a + (B2R b - B2R a) * t)) <= 8 * u24 * (B2R a + B2R b) + 5 * eta.
Definition angle_near (a b : float32) (t : R) (o : float32) : Prop :=
  in_turn_closed o /\ exists d, Rabs d <= T2pi / 2 + 30 * u24 /\ off (100 * u24) (B2R a + d) (B2R b) /\ off (215 * u24) (B2R a + d * t) (B2R o).
Definition raw_near (l : list (Input (A := ieee acosf))) (a b : Input (A := ieee acosf)) (t : R) (r : Result (A := ieee acosf)) : Prop :=
  ((forall i, In i l -> plain_value (i_pressure i)) -> value_ok (i_pressure a) (i_pressure b) t (r_pressure r)) /\
  ((forall i, In i l -> plain_value (i_tilt i)) -> value_ok (i_tilt a) (i_tilt b) t (r_tilt r)) /\
  ((forall i, In i l -> in_turn_closed (i_orient i)) -> angle_near (i_orient a) (i_orient b) t (r_orient r)).

Lemma near_within : forall N N1 (u : Vec2 (A := ieee acosf)), within N u -> N <= N1 -> within N1 u.
Proof. intros N N1 u (W1 & W2 & W3 & W4) H. repeat split; try assumption; lra. Qed.

Lemma exists_near : forall N (q : Vec2 (A := ieee acosf)) (S : list (Input * Input)), within N q -> N <= bpow radix2 60 -> S <> [] ->
  (forall x y, In (x, y) S -> within N (i_pos x) /\ within N (i_pos y) /\ spread (i_pos x) (i_pos y)) ->
  exists x y t, In (x, y) S /\ 0 <= t <= 1 /\ forall x' y' t', In (x', y') S -> 0 <= t' <= 1 -> far_along q (i_pos x) (i_pos y) t <= far_along q (i_pos x') (i_pos y') t' + 112 * u24 * N.
Proof.
  intros N q S WQ NB. assert (N0 : 0 <= N) by (destruct WQ as (_ & _ & W & _); eapply Rle_trans; [apply Rabs_pos|exact W]).
  assert (P : 0 <= 112 * u24 * N) by (unfold u24; lra).
  induction S as [|[x y] l IH]; intros NE H; [contradiction|].
  destruct (H x y (or_introl eq_refl)) as (WX & WY & SP). destruct (seg_ratio _ _ q N WX WY WQ NB SP) as [(_ & R1) R2].
  set (rho := B2R (nearest_point_on_segment (i_pos x) (i_pos y) q : float32)) in *. clearbody rho.
  destruct l as [|z l].
  - exists x, y, rho. split; [left; reflexivity|]. split; [exact R1|]. intros x' y' t' [I1|[]] T. injection I1 as <- <-. apply R2. exact T.
  - destruct IH as (u & v & t & I1 & T & M); [discriminate|intros; apply H; right; assumption|].
    destruct (Rle_or_lt (far_along q (i_pos x) (i_pos y) rho) (far_along q (i_pos u) (i_pos v) t)) as [L|L].
    + exists x, y, rho. split; [left; reflexivity|]. split; [exact R1|]. intros x' y' t' [I2|I2] T'; [injection I2 as <- <-; apply R2; exact T'|].
      eapply Rle_trans; [exact L|]. apply M; assumption.
    + exists u, v, t. split; [right; exact I1|]. split; [exact T|]. intros x' y' t' [I2|I2] T'; [|apply M; assumption].
      injection I2 as <- <-. eapply Rle_trans; [apply Rlt_le; exact L|]. apply R2. exact T'.
Qed.

Lemma segments_in : forall {X : Type} (l : list X) x y, In (x, y) (Props_Proj.segments l) -> In x l /\ In y l.
Proof.
  intros X l x y H. unfold Props_Proj.segments in H. split; [apply in_combine_l in H; exact H|]. apply in_combine_r in H. destruct l; [destruct H|right; exact H].
Qed.

Lemma raw_facts : forall N pts raw, spread_out N pts -> Forall2 as_input pts raw -> Forall (fun r => within N (r_pos r)) raw /\ chained raw.
Proof.
  intros N pts raw [S1 S2] M. split.
  - apply Forall_forall. intros r I1. destruct (rel_right _ _ _ _ M I1) as (x & I2 & (E & _)). cbn [snd] in E. rewrite E. apply S1. exact I2.
  - intros u v I1. destruct (rel_right _ _ _ _ (segments_rel _ _ _ M) I1) as ((x & y) & I2 & (E1 & _) & (E2 & _)). cbn [fst snd] in *. rewrite E1, E2. apply S2. exact I2.
Qed.

(** The position returned by the query. *)
Lemma query_within : forall fuel N l pts sm (tip : TipState (A := ieee acosf)) n q, fmem N l pts sm -> sy_normal (sm_params sm) = false ->
  bpow radix2 (-40) <= N <= bpow radix2 59 -> stylus_query fuel sm tip n = Ret q ->
  is_finite (vx (r_pos q) : float32) = true -> is_finite (vy (r_pos q) : float32) = true -> within (1001 / 1000 * N) (r_pos q).
Proof.
  intros fuel N l pts sm tip n q [_ _ _ M4 M5 M6 M7] NR NB H F1 F2. unfold stylus_query in H. rewrite NR in H.
  assert (N0 : 0 < N) by (pose proof (bpow_gt_0 radix2 (-40)); lra).
  destruct M7 as [M7|(M7 & _)].
  - destruct (raw_facts _ _ _ M6 M7) as [RW RC]. rewrite Forall_forall in RW.
    destruct (s_raw (sm_state sm)) as [|fr rest] eqn:RAW; [exfalso; apply M4; inversion M7; reflexivity|]. rewrite <- RAW in *.
    destruct (project_to_closest (t_pos tip) (s_raw (sm_state sm))) as [c|] eqn:PC.
    + bind_inv H. rename E into IR. apply ret_inj in H. subst q. cbn [r_pos] in *.
      unfold project_to_closest in PC. destruct (project_closest_loop (t_pos tip) (s_raw (sm_state sm)) None) as [[c' d]|] eqn:PL; [|discriminate PC]. cbn in PC. injection PC as ->.
      apply loop_struct in PL. destruct PL as [PL|(u & v & I1 & E)]; [discriminate PL|]. rewrite E in IR. cbn [pj_a pj_b pj_ratio] in IR.
      unfold interp_result in IR. bind_inv IR. apply ret_inj in IR. subst x. cbn [r_pos] in *.
      destruct (segments_in _ _ _ I1) as [I2 I3].
      assert (UR : unit32 (nearest_point_on_segment (r_pos u) (r_pos v) (t_pos tip))).
      { apply ratio_unit. set (rho := nearest_point_on_segment (r_pos u) (r_pos v) (t_pos tip)) in *. clearbody rho.
        destruct (is_nan (rho : float32)) eqn:NN; [|reflexivity]. exfalso. unfold interp_v in F1. unfold A in *. cbn [vadd vx vscale fadd fmul ieee] in F1.
        destruct (Props_FSpring.plus_inv _ _ F1) as (_ & F3 & _). destruct (Props_FSpring.mult_inv _ _ F3) as (F4 & _).
        pose proof (clamp_nan acosf _ NN) as CN. destruct (clamp01 rho); discriminate. }
      destruct (seg_point _ _ _ N (RW _ I2) (RW _ I3) UR NB) as [W _]. exact W.
    + assert (W : forall r, In r (s_raw (sm_state sm)) -> within (1001 / 1000 * N) (r_pos r)) by (intros r I1; eapply near_within; [apply RW; exact I1|lra]).
      destruct (back (s_raw (sm_state sm))) as [bk|] eqn:BK; [|discriminate H].
      assert (IB : In bk (s_raw (sm_state sm))) by (eapply back_in; exact BK).
      match type of H with context [if ?b then _ else _] => destruct b end; cbn [obind] in H; apply ret_inj in H; subst q; cbn [r_pos]; apply W; [rewrite RAW; left; reflexivity|exact IB].
  - rewrite M7 in H. apply ret_inj in H. subst q. destruct (f0_fin acosf) as [Z1 Z2]. cbn [result_no_info r_pos vzero] in *. unfold vzero in *. cbn [vx vy] in *.
    repeat split; try assumption; cbn [vx vy]; unfold real32, A in *; rewrite Z2, Rabs_R0; lra.
Qed.

Lemma single_ok : forall a : float32, plain_value a -> value_ok a a 0 a.
Proof.
  intros a [F R]. unfold real32 in *. split; [lra|]. split; [exact F|]. split; [split; [apply R|apply Rle_trans with (bpow radix2 60); [apply R|apply bpow_le; lia]]|].
  replace (B2R a - (B2R a + (B2R a - B2R a) * 0)) with 0 by ring. rewrite Rabs_R0. pose proof eta_0. unfold u24. lra.
Qed.
Lemma value_good : forall a b rho : float32, plain_value a -> plain_value b -> unit32 rho ->
  value_ok a b (B2R rho) (if fltb (a : F (Arith := A)) f0 || fltb (b : F (Arith := A)) f0 then fm1 else interp_f a b rho).
Proof.
  intros a b rho PA PB UR. split; [|apply (value_near a b rho PA PB UR)]. destruct PA as [_ PA]. destruct PB as [_ PB]. unfold real32 in *. lra.
Qed.
Lemma single_angle : forall a : float32, in_turn_closed a -> angle_near a a 0 a.
Proof.
  intros a H. split; [exact H|]. exists 0. pose proof turn_order. rewrite Rabs_R0, Rmult_0_l, !Rplus_0_r.
  split; [unfold u24; lra|]. split; apply off_refl; unfold u24; lra.
Qed.

Lemma query_near : forall fuel N N1 l pts sm (tip : TipState (A := ieee acosf)) n q, fmem N l pts sm -> sy_normal (sm_params sm) = false ->
  bpow radix2 (-40) <= N -> N <= N1 <= bpow radix2 59 -> within N1 (t_pos tip) -> stylus_query fuel sm tip n = Ret q ->
  exists x y t, on_line pts x y t /\
    (forall x' y' t', on_line pts x' y' t' -> far_along (t_pos tip) (i_pos x) (i_pos y) t <= far_along (t_pos tip) (i_pos x') (i_pos y') t' + 208 * u24 * N1) /\
    raw_near l x y t q.
Proof.
  intros fuel N N1 l pts sm tip n q [M1 M2 M3 M4 M5 M6 M7] NR NB1 NB2 WT H. unfold stylus_query in H. rewrite NR in H.
  assert (N0 : 0 < N1) by (pose proof (bpow_gt_0 radix2 (-40)); lra).
  assert (SP1 : spread_out N1 pts) by (destruct M6 as [S1 S2]; split; [intros x I1; eapply near_within; [apply S1; exact I1|lra]|exact S2]).
  assert (TOL : 0 <= 208 * u24 * N1) by (unfold u24; lra).
  assert (ONE : forall x, pts = [x] -> forall x' y' t', on_line pts x' y' t' -> far_along (t_pos tip) (i_pos x) (i_pos x) 0 <= far_along (t_pos tip) (i_pos x') (i_pos y') t' + 208 * u24 * N1).
  { intros x E1 x' y' t' ON. unfold on_line in ON. rewrite E1 in ON. destruct ON as [[I1 _]|(E & -> & ->)]; [cbn in I1; destruct I1|]. injection E as <-. lra. }
  assert (SEG : forall x1 y1 l1, pts = x1 :: y1 :: l1 -> forall x y t, on_line pts x y t -> In (x, y) (Props_Proj.segments pts) /\ 0 <= t <= 1).
  { intros x1 y1 l1 E1 x y t ON. unfold on_line in ON. rewrite E1 in ON |- *. destruct ON as [[I1 T]|(E & _)]; [split; assumption|discriminate E]. }
  destruct M7 as [M7|(M7 & M8 & M9 & M10)].
  - destruct (raw_facts _ _ _ SP1 M7) as [RW RC].
    destruct (s_raw (sm_state sm)) as [|fr rest] eqn:RAW; [exfalso; apply M4; inversion M7; reflexivity|]. rewrite <- RAW in *.
    pose proof (closest_loop N1 (t_pos tip) (s_raw (sm_state sm)) [] None WT RW RC ltac:(split; lra) eq_refl) as CL. cbn [app] in CL.
    assert (CB : forall bb, project_closest_loop (t_pos tip) (s_raw (sm_state sm)) None = bb -> best_of N1 (t_pos tip) (Props_Proj.segments (s_raw (sm_state sm))) bb) by (intros bb <-; exact CL). clear CL.
    unfold project_to_closest in H. destruct (project_closest_loop (t_pos tip) (s_raw (sm_state sm)) None) as [[c d]|] eqn:PL; cbn [option_map fst] in H.
    + pose proof (CB _ eq_refl) as CL'.
      cbn [best_of] in CL'. destruct CL' as (C1 & C2 & C3 & C4 & C5). bind_inv H. rename E into IR. apply ret_inj in H. subst q.
      destruct (rel_right _ _ _ _ (segments_rel _ _ _ M7) C1) as ((x' & y') & I2 & MX & MY). cbn [fst snd] in MX, MY.
      destruct (segments_in _ _ _ I2) as [IX IY].
      exists x', y', (B2R (pj_ratio c : float32)). split; [left; split; [exact I2|apply C2]|]. split.
      * intros u v t ON.
        assert (LP : exists x1 y1 l1, pts = x1 :: y1 :: l1) by (destruct pts as [|x1 [|y1 l1]]; [destruct I2|destruct I2|eauto]). destruct LP as (x1 & y1 & l1 & LP).
        destruct (SEG _ _ _ LP _ _ _ ON) as [I3 T]. destruct (rel_left _ _ _ _ (segments_rel _ _ _ M7) I3) as ((ru & rv) & I4 & (EU & _) & (EV & _)). cbn [fst snd] in EU, EV.
        unfold A in *. specialize (C5 ru rv t I4 T). rewrite EU, EV in C5. destruct MX as (EX & _). destruct MY as (EY & _). cbn [snd] in EX, EY. rewrite EX, EY in C4.
        apply Rabs_le_inv in C4. unfold A in *. lra.
      * destruct MX as (_ & _ & X1 & X2 & X3). destruct MY as (_ & _ & Y1 & Y2 & Y3). cbn [fst] in X1, X2, X3, Y1, Y2, Y3.
        unfold A in *. unfold interp_result in IR. rewrite X1, X2, X3, Y1, Y2, Y3 in IR. bind_inv IR. rename E into IA. apply ret_inj in IR. subst x.
        split; [|split]; intros K; cbn [r_pressure r_tilt r_orient].
        -- rewrite (M1 K). apply value_good; [apply K, M5; exact IX|apply K, M5; exact IY|exact C2].
        -- rewrite (M2 K). apply value_good; [apply K, M5; exact IX|apply K, M5; exact IY|exact C2].
        -- rewrite (M3 K). pose proof (K _ (M5 _ IX)) as OX. pose proof (K _ (M5 _ IY)) as OY.
           assert (LT : forall o : float32, in_turn_closed o -> fltb (o : F (Arith := A)) f0 = false).
           { intros o [FO RO]. destruct (f0_fin acosf) as [Z1 Z2]. unfold A in *. cbn [fltb ieee]. apply (ltb_false_R 24 128); [exact FO|exact Z1|]. change float32 with (binary_float 24 128) in *. rewrite Z2. apply RO. }
           unfold A in LT. rewrite (LT _ OX), (LT _ OY) in IA. cbn [orb] in IA. apply angle_off in IA; [|exact OX|exact OY|exact C2]. destruct IA as [[FI RI] IA].
           split; [|exact IA]. split; [exact FI|]. pose proof turn_order. lra.
    + pose proof (CB _ eq_refl) as CL.
      cbn [best_of] in CL. assert (LP : exists x r, pts = [x] /\ s_raw (sm_state sm) = [r] /\ as_input x r).
      { destruct M7 as [|x r pl rl MR M7]; [congruence|]. destruct M7 as [|x2 r2 pl rl MR2 M7]; [exists x, r; auto|]. rewrite segments_cons in CL. discriminate CL. }
      destruct LP as (x & r & -> & RR & (_ & _ & X1 & X2 & X3)). cbn [fst] in *. rewrite RR in H, RAW. injection RAW as <- <-. change (back [r]) with (Some r) in H. cbv iota in H.
      exists x, x, 0. split; [right; auto|]. split; [apply ONE; reflexivity|].
      match type of H with context [if ?b then _ else _] => destruct b end; cbn [obind] in H; apply ret_inj in H; subst q; split; [|split| |split]; intros K; cbn [r_pressure r_tilt r_orient];
        pose proof (K _ (M5 _ (or_introl eq_refl))) as KX; (rewrite (M1 K), X1 || rewrite (M2 K), X2 || rewrite (M3 K), X3); (apply single_ok || apply single_angle); exact KX.
  - assert (RN : forall x y t, raw_near l x y t q) by (intros x y t; split; [|split]; intros K; exfalso; [rewrite (M1 K) in M8; discriminate M8|rewrite (M2 K) in M9; discriminate M9|rewrite (M3 K) in M10; discriminate M10]).
    destruct pts as [|x [|y pl]]; [congruence| |].
    + exists x, x, 0. split; [right; auto|]. split; [apply ONE; reflexivity|apply RN].
    + destruct (exists_near N1 (t_pos tip) (Props_Proj.segments (x :: y :: pl)) WT) as (u & v & t & I1 & T & MN).
      * apply Rle_trans with (bpow radix2 59); [lra|apply bpow_le; lia].
      * rewrite segments_cons. discriminate.
      * intros u v I1. destruct SP1 as [S1 S2]. destruct (segments_in _ _ _ I1) as [I2 I3]. auto.
      * exists u, v, t. split; [left; auto|]. split; [|apply RN]. intros x' y' t' ON. destruct (SEG _ _ _ eq_refl _ _ _ ON) as [I2 T'].
        eapply Rle_trans; [apply (MN x' y' t'); assumption|]. apply Rplus_le_compat_l. unfold u24; lra.
Qed.

Lemma near_off : forall x y, off (256 * u24) x y -> near_angle x y.
Proof. intros x y [k H]. exists k. unfold ppm. unfold u24 in H. lra. Qed.

Lemma final_near : forall fuel l a b t q tip r, raw_near l a b t q -> interp_result fuel q (make_result tip q) f1 = Ret r -> nearly_taken l a b t r.
Proof.
  intros fuel l a b t q tip r (H1 & H2 & H3) H. unfold interp_result in H. cbn [make_result r_pos r_vel r_acc r_time r_pressure r_tilt r_orient] in H.
  bind_inv H. rename E into IA. apply ret_inj in H. subst r.
  assert (V : forall x y v : float32, value_ok x y t v -> nearly_between x y t (if fltb (v : F (Arith := A)) f0 || fltb (v : F (Arith := A)) f0 then fm1 else interp_f v v f1)).
  { intros a1 b1 v (AB & F & R & E). destruct (value_same v F R) as [F1 E1]. split; [exact F1|]. unfold real32. eapply Rle_trans; [|eapply Rle_trans; [exact E|]].
    - apply Req_le. f_equal. f_equal. exact E1.
    - unfold ppm, tiny. pose proof eta_0 as E0. replace (bpow radix2 (-146)) with (16 * eta) by (change (-146)%Z with (4 + -150)%Z; rewrite (bpow_plus radix2 4 (-150)); reflexivity).
      unfold u24; lra. }
  split; [|split]; intros K; cbn [r_pressure r_tilt r_orient].
  - apply V. apply H1. exact K.
  - apply V. apply H2. exact K.
  - destruct (H3 K) as [OC (d & D1 & D2 & D3)].
    assert (LT : fltb (r_orient q) f0 = false).
    { destruct OC as [FO RO]. destruct (f0_fin acosf) as [Z1 Z2]. unfold A in *. cbn [fltb ieee]. apply (ltb_false_R 24 128); [exact FO|exact Z1|]. change float32 with (binary_float 24 128) in *. rewrite Z2. apply RO. }
    rewrite LT in IA. cbn [orb] in IA. apply final_angle in IA; [|exact OC]. destruct IA as [[FI RI] OI]. split; [exact FI|].
    exists d. split; [unfold ppm; unfold u24 in D1; lra|]. split; [apply near_off; eapply off_le; [exact D2|unfold u24; lra]|].
    split; [|unfold real32; pose proof turn_order; lra]. apply near_off. eapply off_le; [eapply off_trans; [exact D3|exact OI]|unfold u24; lra].
Qed.

Lemma results_near : forall fuel N l pts sm, fmem N l pts sm -> sy_normal (sm_params sm) = false ->
  bpow radix2 (-40) <= N <= bpow radix2 58 -> forall tips lm pt lm' out, lp_enabled (l_params lm) = false ->
  model_stylus_loop fuel tips sm lm f1 pt = Ret (lm', out) -> Forall (float_reported N l pts) out.
Proof.
  intros fuel N l pts sm M NR [NB1 NB2]. pose proof (bpow_gt_0 radix2 (-40)) as NP.
  assert (NB3 : bpow radix2 58 * (1001 / 1000) <= bpow radix2 59) by (change 59%Z with (1 + 58)%Z; rewrite (bpow_plus radix2 1 58); change (bpow radix2 1) with 2; pose proof (bpow_ge_0 radix2 58); lra).
  induction tips as [|tip rest IH]; intros lm pt lm' out E H; cbn [model_stylus_loop] in H.
  - inversion H; subst. constructor.
  - bind_inv H. rename E0 into Q. bind_inv H. rename E0 into IR.
    destruct (loop_update lm (r_vel x0) (t_time tip)) as [l1 v1] eqn:LU.
    assert (LO : l1 = lm /\ v1 = f1) by (unfold loop_update in LU; rewrite E in LU; injection LU as <- <-; auto). destruct LO as [-> ->].
    bind_inv H. destruct x1 as [l2 o2]. apply ret_inj in H. injection H as <- <-. constructor; [|eapply IH; eassumption].
    intros W. pose proof (query_within _ _ _ _ _ _ _ _ M NR ltac:(split; lra) Q) as QW.
    assert (PE : r_pos x0 = interp_v (r_pos x) (t_pos tip) f1).
    { unfold interp_result in IR. bind_inv IR. apply ret_inj in IR. subst x0. reflexivity. }
    rewrite PE in *. destruct (final_point _ _ N NB1 W QW) as (WT & EX & EY).
    destruct (query_near _ N (1001 / 1000 * N) _ _ _ _ _ _ M NR NB1 ltac:(split; lra) WT Q) as (x1 & y1 & t & ON & MN & RN).
    exists x1, y1, t. split; [|eapply final_near; [exact RN|exact IR]]. split; [exact ON|]. intros x' y' t' ON'. specialize (MN x' y' t' ON').
    pose proof (along_shift _ _ (i_pos x1) (i_pos y1) t _ EX EY) as S1. rewrite Rabs_minus_sym in EX, EY. pose proof (along_shift _ _ (i_pos x') (i_pos y') t' _ EX EY) as S2.
    unfold ppm. unfold u24 in *. unfold A in *. lra.
Qed.

(** ** What the stylus component remembers when a call models its results *)
Definition with_pos (i : Input (A := ieee acosf)) : Input * Vec2 := (i, i_pos i).

Lemma smoothing_off : forall wp l cs st, smoothing wp l cs st -> wp_enabled wp = false -> cs = map i_pos l.
Proof.
  intros wp l cs st H E. induction H as [d|l cs st i c st' H IH W]; [reflexivity|]. rewrite map_app, (IH). cbn [map]. f_equal. f_equal.
  unfold wstep in W. bind_inv W. destruct x as [w c0]. apply ret_inj in W. injection W as _ <-. eapply Props_FLift.wobble_off; [exact E0|exact E].
Qed.
Lemma combine_pos : forall l, combine l (map i_pos l) = map with_pos l.
Proof. induction l as [|i l IH]; [reflexivity|]. cbn [map combine]. rewrite IH. reflexivity. Qed.

Lemma move_memory : forall fuel hist s p es seen i rs out,
  after_seen fuel hist s es seen -> ps_params s = Some p -> i_event i = EMove ->
  answers fuel hist [CUpdate i rs] = Ret [RResults OkStatus (rs ++ out)] -> wp_enabled (p_wobble p) = false ->
  validate_params p = OkStatus /\ exists sm lm lm' tips,
    sm_params sm = p_stylus p /\ remembering (p_stylus p) (map with_pos (seen ++ [i])) (sm_state sm) /\
    l_params lm = pp_loop (p_position p) /\ model_stylus fuel tips sm lm (i_time i) = Ret (lm', out).
Proof.
  intros fuel hist s p es seen i rs out AS P EV AN WO.
  destruct (remembered_state _ _ _ _ _ AS) as (m0 & rs0 & R0 & _ & _ & _ & RM).
  assert (AF : after fuel hist s) by (destruct AS as (ma & rsa & Ra & Pa & _); exists ma, rsa; auto).
  destruct (accepted_update _ _ _ _ _ _ _ AF AN) as (m & r0 & m' & o & R & (T1 & T2 & _) & G & C & K & U & _).
  rewrite R0 in R. injection R as -> ->. apply app_inv_head in K. subst o.
  destruct (upd_move fuel m i m' out U EV) as (q & last0 & w & c & sm & n & tip & tips & pred & lm & MQ & _ & ML & _ & WU & SU & _ & _ & _ & MS & _).
  assert (q = p) by congruence. subst q. pose proof (g_valid _ G p MQ) as V. split; [exact V|].
  destruct (C p MQ ltac:(left; congruence)) as (C1 & C2 & C3 & C4).
  destruct (RM p last0 MQ ML) as (cs & ws & [H1 H2 _ _ _ _]). cbn [core_of co_w co_s] in *.
  exists sm, (m_loop m), lm, tips. split; [|split; [|split; [exact C4|exact MS]]].
  - rewrite <- C3. eapply stylus_update_params. exact SU.
  - rewrite (smoothing_off _ _ _ _ H1 WO), combine_pos in H2. rewrite map_app. eapply Re_more; [exact H2|]. rewrite <- C3.
    assert (CE : c = i_pos i) by (eapply Props_FLift.wobble_off; [exact WU|rewrite C1; exact WO]). rewrite CE in SU.
    apply stylus_mstep. exact SU.
Qed.

Lemma up_memory : forall fuel hist s p es seen i rs out,
  after_seen fuel hist s es seen -> ps_params s = Some p -> i_event i = EUp ->
  answers fuel hist [CUpdate i rs] = Ret [RResults OkStatus (rs ++ out)] -> wp_enabled (p_wobble p) = false ->
  validate_params p = OkStatus /\ exists i0 sm lm lm' tips, ps_last s = Some i0 /\
    sm_params sm = p_stylus p /\ remembering (p_stylus p) (map with_pos (seen ++ [i])) (sm_state sm) /\
    l_params lm = pp_loop (p_position p) /\ model_stylus fuel tips sm lm (i_time i0) = Ret (lm', out).
Proof.
  intros fuel hist s p es seen i rs out AS P EV AN WO.
  destruct (remembered_state _ _ _ _ _ AS) as (m0 & rs0 & R0 & _ & _ & _ & RM).
  assert (AF : after fuel hist s) by (destruct AS as (ma & rsa & Ra & Pa & _); exists ma, rsa; auto).
  destruct (accepted_update _ _ _ _ _ _ _ AF AN) as (m & r0 & m' & o & R & (T1 & T2 & _) & G & C & K & U & _).
  rewrite R0 in R. injection R as -> ->. apply app_inv_head in K. subst o.
  destruct (upd_up fuel m i m' out U EV) as (q & last0 & n & tip1 & tips1 & tip2 & tips2 & sm & lm & MQ & _ & ML & _ & _ & _ & _ & SU & MS & _).
  assert (q = p) by congruence. subst q. pose proof (g_valid _ G p MQ) as V. split; [exact V|].
  destruct (C p MQ ltac:(left; congruence)) as (C1 & C2 & C3 & C4).
  destruct (RM p last0 MQ ML) as (cs & ws & [H1 H2 _ _ _ _]). cbn [core_of co_w co_s] in *.
  eexists _, sm, (m_loop m), lm, _. split; [rewrite T2, ML; reflexivity|]. split; [|split; [|split; [exact C4|exact MS]]].
  - rewrite <- C3. eapply stylus_update_params. exact SU.
  - rewrite (smoothing_off _ _ _ _ H1 WO), combine_pos in H2. rewrite map_app. eapply Re_more; [exact H2|]. rewrite <- C3.
    apply stylus_mstep. exact SU.
Qed.

Lemma predict_memory : forall fuel hist s p es seen rs out,
  after_seen fuel hist s es seen -> ps_params s = Some p ->
  answers fuel hist [CPredict rs] = Ret [RResults OkStatus out] -> wp_enabled (p_wobble p) = false ->
  validate_params p = OkStatus /\ seen <> [] /\ exists i0 sm lm lm' tips, ps_last s = Some i0 /\
    sm_params sm = p_stylus p /\ remembering (p_stylus p) (map with_pos seen) (sm_state sm) /\
    l_params lm = pp_loop (p_position p) /\ model_stylus fuel tips sm lm (i_time i0) = Ret (lm', out).
Proof.
  intros fuel hist s p es seen rs out AS P AN WO.
  destruct (remembered_state _ _ _ _ _ AS) as (m0 & rs0 & R0 & _ & _ & _ & RM).
  assert (AF : after fuel hist s) by (destruct AS as (ma & rsa & Ra & Pa & _); exists ma, rsa; auto).
  destruct (accepted_predict _ _ _ _ _ _ AF AN) as (m & r0 & m' & R & (T1 & T2 & _) & G & C & U).
  rewrite R0 in R. injection R as -> ->.
  destruct (prd_ok fuel m m' out U) as (q & pr & last0 & tips & lm & MQ & _ & ML & _ & MS & _).
  assert (q = p) by congruence. subst q. pose proof (g_valid _ G p MQ) as V. split; [exact V|].
  destruct (C p MQ ltac:(left; congruence)) as (C1 & C2 & C3 & C4).
  destruct (RM p last0 MQ ML) as (cs & ws & [H1 H2 _ _ _ _]). cbn [core_of co_w co_s] in *.
  split.
  { intros ->. clear - H1. remember [] as l eqn:E in H1. destruct H1 as [d|l cs st j c st' H W]; [discriminate E|]. destruct l; discriminate E. }
  eexists _, (m_stylus m), (m_loop m), lm, _. split; [rewrite T2, ML; reflexivity|]. split; [exact C3|split; [|split; [exact C4|exact MS]]].
  rewrite (smoothing_off _ _ _ _ H1 WO), combine_pos in H2. exact H2.
Qed.

Lemma all_known : forall (f : Input -> float32) l, (forall i, In i l -> is_finite (f i) = true /\ 0 <= B2R (f i)) ->
  existsb (fun ic => unknown_value (f (fst ic))) (map with_pos l) = false.
Proof.
  intros f l H. induction l as [|x l IH]; [reflexivity|]. cbn [existsb map]. rewrite IH by (intros i I1; apply H; right; exact I1).
  rewrite orb_false_r. destruct (H x (or_introl eq_refl)) as [FX RX]. destruct (f0_fin acosf) as [Z1 Z2]. unfold unknown_value. cbn [with_pos fst].
  apply orb_false_intro.
  - unfold A in *. cbn [fltb ieee]. apply (ltb_false_R 24 128); [exact FX|exact Z1|]. change float32 with (binary_float 24 128) in *. rewrite Z2. exact RX.
  - unfold A in *. cbn [fisnan ieee]. destruct (f x); try reflexivity; discriminate FX.
Qed.

Lemma memory_near : forall N sm l, validate_stylus (sm_params sm) = OkStatus -> sy_normal (sm_params sm) = false ->
  remembering (sm_params sm) (map with_pos l) (sm_state sm) -> l <> [] ->
  spread_out N (Props_Proj.most_recent (sy_max_samples (sm_params sm)) l) ->
  fmem N l (Props_Proj.most_recent (sy_max_samples (sm_params sm)) l) sm.
Proof.
  intros N sm l V NR RM NE SP. destruct (remembering_raw _ _ _ V RM) as ((F1 & F2 & F3) & K). unfold A in *.
  assert (MX : (0 < sy_max_samples (sm_params sm))%Z).
  { unfold validate_stylus in V. rewrite NR in V. unfold validate_gt0_i in V. destruct (Z.leb_spec (sy_max_samples (sm_params sm)) 0); [discriminate V|lia]. }
  assert (LN : List.length l <> 0%nat) by (destruct l; cbn; congruence).
  constructor.
  - intros H. transitivity (existsb (fun ic => unknown_value (A := ieee acosf) (i_pressure (fst ic))) (map with_pos l)); [exact F1|]. apply (all_known i_pressure). intros i I1. destruct (H i I1) as [X1 X2]. split; [exact X1|apply X2].
  - intros H. transitivity (existsb (fun ic => unknown_value (A := ieee acosf) (i_tilt (fst ic))) (map with_pos l)); [exact F2|]. apply (all_known i_tilt). intros i I1. destruct (H i I1) as [X1 X2]. split; [exact X1|apply X2].
  - intros H. transitivity (existsb (fun ic => unknown_value (A := ieee acosf) (i_orient (fst ic))) (map with_pos l)); [exact F3|]. apply (all_known i_orient). intros i I1. destruct (H i I1) as [X1 X2]. split; [exact X1|apply X2].
  - intros H. apply (f_equal (@List.length _)) in H. unfold Props_Proj.most_recent in H. rewrite skipn_length in H. cbn in H. lia.
  - intros x H. unfold Props_Proj.most_recent in H. rewrite <- (firstn_skipn (List.length l - Z.to_nat (sy_max_samples (sm_params sm))) l).
    apply in_or_app. right. exact H.
  - exact SP.
  - destruct K as [[K1 [K2|[K2 K3]]]|(k & RT & K1)].
    + exfalso. apply (f_equal (@List.length _)) in K2. rewrite map_length in K2. cbn in K2. lia.
    + right. unfold Memory.all_unknown in K3. apply andb_prop in K3. destruct K3 as [K3 K4]. apply andb_prop in K3. destruct K3 as [K3 K5]. auto.
    + left. rewrite (ret_closest _ _ _ RT NR) in K1. rewrite map_length in K1. fold (Props_Proj.most_recent (sy_max_samples (sm_params sm)) l).
      rewrite skipn_map in K1. unfold Props_Proj.most_recent. clear -K1. revert K1. set (l1 := skipn _ l). set (raw := s_raw (sm_state sm)). clearbody l1 raw. intros K1. revert raw K1.
      induction l1 as [|x l1 IH]; intros raw K1; inversion K1; subst; constructor; [assumption|apply IH; assumption].
Qed.

Lemma closest_near : forall fuel N p l sm lm lm' tips pt out, validate_params p = OkStatus ->
  sy_normal (p_stylus p) = false -> l <> [] -> sm_params sm = p_stylus p ->
  remembering (p_stylus p) (map with_pos l) (sm_state sm) -> l_params lm = pp_loop (p_position p) ->
  bpow radix2 (-40) <= N <= bpow radix2 58 -> spread_out N (Props_Proj.most_recent (sy_max_samples (p_stylus p)) l) ->
  model_stylus fuel tips sm lm pt = Ret (lm', out) ->
  Forall (float_reported N l (Props_Proj.most_recent (sy_max_samples (p_stylus p)) l)) out.
Proof.
  intros fuel N p l sm lm lm' tips pt out V NR NE SP RM LP NB SO MS.
  assert (OFF : lp_enabled (l_params lm) = false).
  { rewrite LP. destruct (lp_enabled (pp_loop (p_position p))) eqn:E; [|reflexivity]. exfalso. unfold validate_params in V. rewrite E, NR in V. discriminate V. }
  unfold model_stylus, loop_get in MS. rewrite loop_value_off in MS by exact OFF.
  rewrite <- SP in *. eapply results_near; [|exact NR|exact NB|exact OFF|exact MS].
  apply memory_near; try assumption. rewrite SP. apply (validate_params_parts p V).
Qed.
End FProj.

(** ** C31 (with C29, C30) *)
(** Smoothing off.  The results of a Move have the pressure, tilt and orientation of
    the point nearest to the result's position, of the polyline of the most recent
    inputs, up to rounding. *)
Theorem C31_float_closest_point_move : forall acosf (A := ieee acosf) fuel hist s (p : StrokeModelParams (A := ieee acosf)) es seen (i : Input (A := ieee acosf)) rs out N,
  after_seen fuel hist s es seen -> ps_params s = Some p -> sy_normal (p_stylus p) = false -> wp_enabled (p_wobble p) = false -> i_event i = EMove ->
  answers fuel hist [CUpdate i rs] = Ret [RResults OkStatus (rs ++ out)] ->
  bpow radix2 (-40) <= N <= bpow radix2 58 ->
  let recent := Props_Proj.most_recent (sy_max_samples (p_stylus p)) (seen ++ [i]) in
  spread_out N recent -> Forall (float_reported N (seen ++ [i]) recent) out.
Proof.
  intros acosf A fuel hist s p es seen i rs out N AS P NR WO EV AN NB recent SO. subst A. unfold recent in *.
  destruct (move_memory acosf _ _ _ _ _ _ _ _ _ AS P EV AN WO) as (V & sm & lm & lm' & tips & SP & RM & LP & MS).
  eapply closest_near; try eassumption. intros E. apply app_eq_nil in E. destruct E; discriminate.
Qed.

(** Of an Up. *)
Theorem C31_float_closest_point_up : forall acosf (A := ieee acosf) fuel hist s (p : StrokeModelParams (A := ieee acosf)) es seen (i : Input (A := ieee acosf)) rs out N,
  after_seen fuel hist s es seen -> ps_params s = Some p -> sy_normal (p_stylus p) = false -> wp_enabled (p_wobble p) = false -> i_event i = EUp ->
  answers fuel hist [CUpdate i rs] = Ret [RResults OkStatus (rs ++ out)] ->
  bpow radix2 (-40) <= N <= bpow radix2 58 ->
  let recent := Props_Proj.most_recent (sy_max_samples (p_stylus p)) (seen ++ [i]) in
  spread_out N recent -> Forall (float_reported N (seen ++ [i]) recent) out.
Proof.
  intros acosf A fuel hist s p es seen i rs out N AS P NR WO EV AN NB recent SO. subst A. unfold recent in *.
  destruct (up_memory acosf _ _ _ _ _ _ _ _ _ AS P EV AN WO) as (V & i0 & sm & lm & lm' & tips & _ & SP & RM & LP & MS).
  eapply closest_near; try eassumption. intros E. apply app_eq_nil in E. destruct E; discriminate.
Qed.

(** Of a prediction. *)
Theorem C31_float_closest_point_predict : forall acosf (A := ieee acosf) fuel hist s (p : StrokeModelParams (A := ieee acosf)) es seen rs out N,
  after_seen fuel hist s es seen -> ps_params s = Some p -> sy_normal (p_stylus p) = false -> wp_enabled (p_wobble p) = false ->
  answers fuel hist [CPredict rs] = Ret [RResults OkStatus out] ->
  bpow radix2 (-40) <= N <= bpow radix2 58 ->
  let recent := Props_Proj.most_recent (sy_max_samples (p_stylus p)) seen in
  spread_out N recent -> Forall (float_reported N seen recent) out.
Proof.
  intros acosf A fuel hist s p es seen rs out N AS P NR WO AN NB recent SO. subst A. unfold recent in *.
  destruct (predict_memory acosf _ _ _ _ _ _ _ _ AS P AN WO) as (V & NE & i0 & sm & lm & lm' & tips & _ & SP & RM & LP & MS).
  eapply closest_near; eassumption.
Qed.
