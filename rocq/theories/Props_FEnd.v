(** * C24 in binary32/binary64: the end of the stroke. *)
From Coq Require Import ZArith Bool List Reals Lra Lia Psatz.
From Flocq Require Import Core BinarySingleNaN Plus_error Relative.
From Verif Require Import Props_FSpring Props_FRest Props_FRate Props_FLift Stable Filter Props_Stylus.
Import ListNotations.
Open Scope R_scope.

(** ** Specification *)
(** The distance of two points. *)
Definition far {acosf : float32 -> float32} (u v : Vec2 (A := ieee acosf)) : R :=
  sqrt ((real32 (vx v) - real32 (vx u)) * (real32 (vx v) - real32 (vx u)) + (real32 (vy v) - real32 (vy u)) * (real32 (vy v) - real32 (vy u))).

(** A stopping distance of an ordinary size: between 2^-60 and 2^40. *)
Definition moderate_stop (stop : float32) : Prop := bpow radix2 (-60) <= real32 stop <= bpow radix2 40.
(** A point whose coordinates are at most 2^60. *)
Definition moderate_point {acosf : float32 -> float32} (u : Vec2 (A := ieee acosf)) : Prop :=
  Rabs (real32 (vx u)) <= bpow radix2 60 /\ Rabs (real32 (vy u)) <= bpow radix2 60.

(** The time [t'] is [dt] after [t], up to rounding. *)
Definition step_time (t dt t' : R) : Prop := Rabs (t' - (t + dt)) <= ppm * ppm * (Rabs t + dt) + tiny.
(** [r] follows [q] by the law with the fixed anchor [w], over the time [dt]. *)
Definition float_step {acosf : float32 -> float32} (pp : PositionParams (A := ieee acosf)) (w : Vec2 (A := ieee acosf)) (dt : R)
    (q r : Result (A := ieee acosf)) : Prop :=
  float_spring_law pp q r w w 1 /\ step_time (real64 (r_time q)) dt (real64 (r_time r)).
(** Each of the results [tail], which come after [prev], follows the law for a time
    of at most [g], moves by at least [stop] and, unless it starts half a million
    times that far away, gets closer to the anchor [w]. *)
Definition float_approaches {acosf : float32 -> float32} (pp : PositionParams (A := ieee acosf)) (w : Vec2 (A := ieee acosf)) (stop g : R)
    (prev : Result (A := ieee acosf)) (tail : list (Result (A := ieee acosf))) : Prop :=
  forall j r, nth_error tail j = Some r -> exists q h, nth_error (prev :: tail) j = Some q /\
    float_step pp w (g / 2 ^ h) q r /\
    (1 - ppm) * stop <= far (r_pos q) (r_pos r) /\
    (far (r_pos q) w <= 524288 * stop -> far (r_pos r) w < far (r_pos q) w).
(** The same motion: position, velocity, acceleration and time. *)
Definition same_numbers {acosf : float32 -> float32} (u v : Vec2 (A := ieee acosf)) : Prop :=
  real32 (vx u) = real32 (vx v) /\ real32 (vy u) = real32 (vy v).
Definition same_motion {acosf : float32 -> float32} (q r : Result (A := ieee acosf)) : Prop :=
  same_numbers (r_pos q) (r_pos r) /\ same_numbers (r_vel q) (r_vel r) /\ same_numbers (r_acc q) (r_acc r) /\
  real64 (r_time q) = real64 (r_time r).

(** ** Numbers *)
Lemma sub_rel : forall x y : float32, is_finite x = true -> is_finite y = true ->
  Rabs (r32 (B2R x - B2R y) - (B2R x - B2R y)) <= u24 * Rabs (B2R x - B2R y).
Proof.
  intros x y FX FY. pose proof (fmt_B2R 24 128 x) as GX. pose proof (fmt_opp 24 128 _ (fmt_B2R 24 128 y)) as GY.
  destruct (FLT_plus_error_N_ex radix2 (-149) 24 (fun z => negb (Z.even z)) _ _ GX GY) as (e & E1 & E2).
  assert (K : r32 (B2R x - B2R y) = (B2R x - B2R y) * (1 + e)) by exact E2.
  rewrite K. replace ((B2R x - B2R y) * (1 + e) - (B2R x - B2R y)) with (e * (B2R x - B2R y)) by ring. rewrite Rabs_mult.
  apply Rmult_le_compat_r; [apply Rabs_pos|]. eapply Rle_trans; [exact E1|]. unfold u24.
  assert (UR : u_ro radix2 24 = / 16777216) by (unfold u_ro; change (bpow radix2 (- (24) + 1)) with (/ 8388608); lra).
  rewrite UR. apply Rmult_le_reg_r with (1 + / 16777216); [lra|]. unfold Rdiv. rewrite Rmult_assoc, Rinv_l by lra. lra.
Qed.

Lemma not_inf : forall x : float32, is_finite x = true -> is_inf x = false.
Proof. intros []; try reflexivity; discriminate. Qed.

Lemma plus_nan_l : forall x : float64, Bplus mode_NE (B754_nan : float64) x = B754_nan.
Proof. intros []; reflexivity. Qed.
Lemma plus_nan_r : forall x : float64, Bplus mode_NE x (B754_nan : float64) = B754_nan.
Proof. intros []; reflexivity. Qed.

Lemma last_app' : forall {X} (x y : list X) d, last (x ++ y) d = last y (last x d).
Proof.
  intros X x. induction x as [|a x IH]; intros y d; [reflexivity|]. cbn [app]. rewrite !last_cons'. apply IH.
Qed.

(** The computation of a distance, in binary64. *)
Definition hyp64 (x y : float32) : float64 :=
  Bsqrt mode_NE (Bplus mode_NE (Bmult mode_NE (b32_to_b64 x) (b32_to_b64 x)) (Bmult mode_NE (b32_to_b64 y) (b32_to_b64 y))).
Lemma hyp64_val : forall x y : float32, is_finite x = true -> is_finite y = true ->
  b_hypot x y = b64_to_b32 (hyp64 x y) /\ is_finite (hyp64 x y) = true /\
  B2R (hyp64 x y) = r64 (sqrt (r64 (r64 (B2R x * B2R x) + r64 (B2R y * B2R y)))).
Proof.
  intros x y FX FY. split; [unfold b_hypot; rewrite (not_inf _ FX), (not_inf _ FY); reflexivity|].
  assert (SQ : forall z : float32, is_finite z = true -> is_finite (Bmult mode_NE (b32_to_b64 z) (b32_to_b64 z)) = true /\
    B2R (Bmult mode_NE (b32_to_b64 z) (b32_to_b64 z)) = r64 (B2R z * B2R z) /\ 0 <= r64 (B2R z * B2R z) <= bpow radix2 256).
  { intros z FZ. destruct (f2d_fin z FZ) as [G1 K1]. pose proof (B2R_lt_emax 24 128 z) as LZ.
    assert (P : 0 <= B2R z * B2R z <= bpow radix2 256).
    { split; [apply Rle_0_sqr|]. change 256%Z with (128 + 128)%Z. rewrite bpow_plus. rewrite <- (Rabs_pos_eq (B2R z * B2R z)) by apply Rle_0_sqr. rewrite Rabs_mult.
      apply Rmult_le_compat; try apply Rabs_pos; lra. }
    assert (FM : fmt 53 1024 (bpow radix2 256)) by (apply fmt_bpow; [reflexivity|lia]).
    destruct (mult_fin 53 1024 _ _ _ _ G1 G1) as [M1 M2].
    { rewrite K1. eapply small_fmt_bound; [reflexivity|exact FM|apply bpow_lt; lia|]. rewrite Rabs_pos_eq by apply P. apply P. }
    rewrite K1 in M2. split; [exact M1|]. split; [exact M2|]. split; [apply rnd_ge0; [reflexivity|apply P]|apply rnd_le_fmt; [reflexivity|exact FM|apply P]]. }
  destruct (SQ x FX) as (X1 & X2 & X3). destruct (SQ y FY) as (Y1 & Y2 & Y3).
  assert (FM : fmt 53 1024 (bpow radix2 257)) by (apply fmt_bpow; [reflexivity|lia]).
  assert (EK : bpow radix2 257 = 2 * bpow radix2 256) by (change 257%Z with (1 + 256)%Z; rewrite bpow_plus; reflexivity).
  destruct (plus_fin 53 1024 _ _ _ _ X1 Y1) as [P1 P2].
  { rewrite X2, Y2. eapply small_fmt_bound; [reflexivity|exact FM|apply bpow_lt; lia|]. rewrite Rabs_pos_eq by lra. lra. }
  rewrite X2, Y2 in P2. destruct (sqrt_fin 53 1024 _ _ _ P1) as [Q1 Q2]; [rewrite P2; apply rnd_ge0; [reflexivity|lra]|].
  split; [exact Q1|]. unfold hyp64. rewrite Q2, P2. reflexivity.
Qed.

Lemma eta_stop : forall s, bpow radix2 (-60) <= s -> eta <= u24 * / 64 * (s * s) /\ eta <= u24 * / 64 * s.
Proof.
  intros s H. pose proof (bpow_gt_0 radix2 (-60)) as P.
  assert (K : bpow radix2 (-120) <= s * s) by (change (-120)%Z with (-60 + -60)%Z; rewrite bpow_plus; apply Rmult_le_compat; lra).
  assert (E : u24 * / 64 = bpow radix2 (-30)) by (unfold u24; change (bpow radix2 (-30)) with (/ 1073741824); lra). rewrite E. pose proof (bpow_gt_0 radix2 (-30)) as P30.
  split.
  - apply Rle_trans with (bpow radix2 (-30) * bpow radix2 (-120)); [rewrite <- bpow_plus; apply Rle_refl|apply Rmult_le_compat_l; lra].
  - apply Rle_trans with (bpow radix2 (-30) * bpow radix2 (-60)); [rewrite <- bpow_plus; apply bpow_le; lia|apply Rmult_le_compat_l; lra].
Qed.

(** The sum of squares and its computed value. *)
Lemma squares : forall x y, let S := x * x + y * y in let S' := r64 (r64 (x * x) + r64 (y * y)) in
  Rabs (S' - S) <= u24 * / 64 * S + 4 * eta /\ 0 <= S /\ 0 <= S'.
Proof.
  intros x y S S'. pose proof (Rle_0_sqr x) as PX. pose proof (Rle_0_sqr y) as PY. unfold Rsqr in PX, PY. pose proof eta_0 as E0.
  pose proof (r64_error (x * x)) as X1. pose proof (r64_error (y * y)) as Y1. rewrite (Rabs_pos_eq _ PX) in X1. rewrite (Rabs_pos_eq _ PY) in Y1.
  assert (N1 : 0 <= r64 (x * x)) by (apply rnd_ge0; [reflexivity|exact PX]). assert (N2 : 0 <= r64 (y * y)) by (apply rnd_ge0; [reflexivity|exact PY]).
  pose proof (r64_error (r64 (x * x) + r64 (y * y))) as Z1. rewrite (Rabs_pos_eq (r64 (x * x) + r64 (y * y))) in Z1 by lra. fold S' in Z1.
  split; [|split; [unfold S; lra|apply rnd_ge0; [reflexivity|lra]]].
  apply Rabs_le_inv in X1, Y1, Z1. unfold u53 in *. unfold u24. unfold S. apply Rabs_le. split; lra.
Qed.
Lemma root : forall S, 0 <= S -> 0 <= sqrt S /\ sqrt S * sqrt S = S.
Proof. intros S H. split; [apply sqrt_pos|apply sqrt_sqrt; exact H]. Qed.

Lemma hyp_lower : forall x y s, bpow radix2 (-60) <= s ->
  s <= (1 + u24) * r64 (sqrt (r64 (r64 (x * x) + r64 (y * y)))) + eta -> (1 - 7 * u24) * (s * s) <= x * x + y * y.
Proof.
  intros x y s SB H. destruct (eta_stop s SB) as [E1 E2]. pose proof eta_0 as E0. pose proof (bpow_gt_0 radix2 (-60)) as P60.
  destruct (squares x y) as (Q1 & Q2 & Q3). set (S := x * x + y * y) in *. set (S' := r64 (r64 (x * x) + r64 (y * y))) in *.
  destruct (root S' Q3) as [R1 R2]. set (w := sqrt S') in *. pose proof (r64_error w) as W. rewrite (Rabs_pos_eq _ R1) in W.
  apply Rabs_le_inv in W, Q1. unfold u53 in W. set (z := r64 w) in *. assert (S0 : 0 < s) by lra.
  assert (K1 : s * (1 - 2 * u24) <= w) by (unfold u24 in *; lra).
  assert (K2 : (s * (1 - 2 * u24)) * (s * (1 - 2 * u24)) <= w * w) by (apply Rmult_le_compat; unfold u24 in *; lra).
  rewrite R2 in K2. set (ss := s * s) in *. assert (SS : 0 <= ss) by (unfold ss; apply Rle_0_sqr).
  replace ((s * (1 - 2 * u24)) * (s * (1 - 2 * u24))) with (ss * ((1 - 2 * u24) * (1 - 2 * u24))) in K2 by (unfold ss; ring).
  clearbody ss S S'. unfold u24 in *. lra.
Qed.
Lemma hyp_upper : forall x y s, bpow radix2 (-60) <= s ->
  (1 - u24) * r64 (sqrt (r64 (r64 (x * x) + r64 (y * y)))) - eta <= s -> x * x + y * y <= (1 + 8 * u24) * (s * s).
Proof.
  intros x y s SB H. destruct (eta_stop s SB) as [E1 E2]. pose proof eta_0 as E0. pose proof (bpow_gt_0 radix2 (-60)) as P60.
  destruct (squares x y) as (Q1 & Q2 & Q3). set (S := x * x + y * y) in *. set (S' := r64 (r64 (x * x) + r64 (y * y))) in *.
  destruct (root S' Q3) as [R1 R2]. set (w := sqrt S') in *. pose proof (r64_error w) as W. rewrite (Rabs_pos_eq _ R1) in W.
  apply Rabs_le_inv in W, Q1. unfold u53 in W. set (z := r64 w) in *. assert (S0 : 0 < s) by lra.
  assert (K1 : w <= s * (1 + 2 * u24)) by (unfold u24 in *; lra).
  assert (K2 : w * w <= (s * (1 + 2 * u24)) * (s * (1 + 2 * u24))) by (apply Rmult_le_compat; lra).
  rewrite R2 in K2. set (ss := s * s) in *. assert (SS : 0 <= ss) by (unfold ss; apply Rle_0_sqr).
  replace ((s * (1 + 2 * u24)) * (s * (1 + 2 * u24))) with (ss * ((1 + 2 * u24) * (1 + 2 * u24))) in K2 by (unfold ss; ring).
  clearbody ss S S'. unfold u24 in *. lra.
Qed.

Lemma rel_square : forall x d, Rabs (x - d) <= u24 * Rabs d -> (1 - 2 * u24) * (d * d) <= x * x <= (1 + 3 * u24) * (d * d).
Proof.
  intros x d H. assert (E : x * x = Rabs x * Rabs x) by (rewrite <- Rabs_mult, Rabs_pos_eq by apply Rle_0_sqr; reflexivity).
  assert (E2 : d * d = Rabs d * Rabs d) by (rewrite <- Rabs_mult, Rabs_pos_eq by apply Rle_0_sqr; reflexivity). rewrite E, E2. clear E E2.
  pose proof (Rabs_pos d) as P. pose proof (Rabs_triang_inv x d) as T. pose proof (Rabs_triang_inv d x) as T2. rewrite Rabs_minus_sym in T2.
  set (a := Rabs x) in *. set (b := Rabs d) in *. assert (B1 : (1 - u24) * b <= a) by (unfold u24 in *; lra). assert (B2 : a <= (1 + u24) * b) by (unfold u24 in *; lra).
  assert (B0 : 0 <= (1 - u24) * b) by (unfold u24; lra). assert (BB : 0 <= b * b) by (apply Rle_0_sqr). split.
  - apply Rle_trans with (((1 - u24) * b) * ((1 - u24) * b)); [|apply Rmult_le_compat; lra].
    replace (((1 - u24) * b) * ((1 - u24) * b)) with ((1 - u24) * (1 - u24) * (b * b)) by ring. unfold u24. lra.
  - apply Rle_trans with (((1 + u24) * b) * ((1 + u24) * b)); [apply Rmult_le_compat; lra|].
    replace (((1 + u24) * b) * ((1 + u24) * b)) with ((1 + u24) * (1 + u24) * (b * b)) by ring. unfold u24. lra.
Qed.

(** A computed dot product. *)
Lemma dot_error : forall P L p1 p2 s1 s2 f1 f2 g1 g2, 0 <= P -> 0 <= L -> eta <= u24 * / 4 * (L * L) ->
  Rabs p1 <= P -> Rabs p2 <= P -> Rabs s1 <= L -> Rabs s2 <= L ->
  Rabs (f1 - p1) <= u24 * Rabs p1 -> Rabs (f2 - p2) <= u24 * Rabs p2 -> Rabs (g1 - s1) <= u24 * Rabs s1 -> Rabs (g2 - s2) <= u24 * Rabs s2 ->
  Rabs (r32 (r32 (f1 * g1) + r32 (f2 * g2)) - (p1 * s1 + p2 * s2)) <= 9 * u24 * (P * L) + u24 * (L * L).
Proof.
  intros P L p1 p2 s1 s2 f1 f2 g1 g2 P0 L0 EL A1 A2 B1 B2 C1 C2 D1 D2. pose proof eta_0 as E0. assert (U : u24 = / 16777216) by reflexivity.
  assert (M : forall p s f g, Rabs p <= P -> Rabs s <= L -> Rabs (f - p) <= u24 * Rabs p -> Rabs (g - s) <= u24 * Rabs s ->
    Rabs (r32 (f * g) - p * s) <= 13 / 4 * u24 * (P * L) + eta).
  { intros p s f g HP HS HF HG. assert (UP : u24 * Rabs p <= u24 * P) by (rewrite U; lra). assert (US : u24 * Rabs s <= u24 * L) by (rewrite U; lra).
    assert (F1 : Rabs f <= P + u24 * P) by (eapply size; [eapply Rle_trans; [exact HF|exact UP]|exact HP]).
    assert (K : Rabs (f * g - p * s) <= (2 * u24 + u24 * u24) * (P * L)).
    { replace (f * g - p * s) with (f * (g - s) + (f - p) * s) by ring. eapply Rle_trans; [apply Rabs_triang|]. rewrite !Rabs_mult.
      assert (K1 : Rabs f * Rabs (g - s) <= (P + u24 * P) * (u24 * L)) by (apply Rmult_le_compat; try apply Rabs_pos; lra).
      assert (K2 : Rabs (f - p) * Rabs s <= u24 * P * L) by (apply Rmult_le_compat; try apply Rabs_pos; lra). lra. }
    assert (PS : Rabs (p * s) <= P * L) by (rewrite Rabs_mult; apply Rmult_le_compat; try apply Rabs_pos; assumption).
    destruct (err_le _ _ (size _ _ _ _ K PS)) as [W _]. pose proof (tri _ _ _ _ _ W K) as T. assert (0 <= P * L) by (apply Rmult_le_pos; assumption).
    eapply Rle_trans; [exact T|]. set (PL := P * L) in *. rewrite U. lra. }
  pose proof (M _ _ _ _ A1 B1 C1 D1) as M1. pose proof (M _ _ _ _ A2 B2 C2 D2) as M2. clear M.
  assert (S1 : Rabs (r32 (f1 * g1) + r32 (f2 * g2) - (p1 * s1 + p2 * s2)) <= 13 / 2 * u24 * (P * L) + 2 * eta).
  { replace (r32 (f1 * g1) + r32 (f2 * g2) - (p1 * s1 + p2 * s2)) with ((r32 (f1 * g1) - p1 * s1) + (r32 (f2 * g2) - p2 * s2)) by ring.
    eapply Rle_trans; [apply Rabs_triang|]. lra. }
  assert (S2 : Rabs (p1 * s1 + p2 * s2) <= 2 * (P * L)).
  { eapply Rle_trans; [apply Rabs_triang|]. rewrite !Rabs_mult.
    assert (Rabs p1 * Rabs s1 <= P * L) by (apply Rmult_le_compat; try apply Rabs_pos; assumption).
    assert (Rabs p2 * Rabs s2 <= P * L) by (apply Rmult_le_compat; try apply Rabs_pos; assumption). lra. }
  destruct (err_le _ _ (size _ _ _ _ S1 S2)) as [W _]. pose proof (tri _ _ _ _ _ W S1) as T. assert (0 <= P * L) by (apply Rmult_le_pos; assumption).
  eapply Rle_trans; [exact T|]. set (PL := P * L) in *. set (LL := L * L) in *. rewrite U in *. lra.
Qed.

(** What the comparison says about the exact numbers. *)
Lemma closer_real : forall P L dot len df lf, 0 < L -> 0 <= P -> P <= 600000 * L -> len = L * L ->
  Rabs (df - dot) <= 9 * u24 * (P * L) + u24 * (L * L) -> Rabs (lf - len) <= 10 * u24 * (L * L) ->
  (1 - 2 * u24) * lf <= df -> P * P - 2 * dot + len < P * P.
Proof.
  intros P L dot len df lf L0 P0 PL E H1 H2 H3. apply Rabs_le_inv in H1, H2. rewrite E in *.
  assert (LL : 0 < L * L) by (apply Rmult_lt_0_compat; assumption). assert (K : P * L <= 600000 * (L * L)) by (rewrite <- Rmult_assoc; apply Rmult_le_compat_r; lra).
  set (l2 := L * L) in *. set (pl := P * L) in *. unfold u24 in *. lra.
Qed.

(** ** The steps towards the end, in any arithmetic *)
Section Steps.
Context {A : Arith}.
Fixpoint halves (d : D) (h : nat) : D :=
  match h with O => d | S h => halves (dmul d (ddiv (dofZ 1) (dofZ 2))) h end.
Lemma halves_last : forall h d, halves d (S h) = dmul (halves d h) (ddiv (dofZ 1) (dofZ 2)).
Proof. induction h as [|h IH]; intros d; [reflexivity|]. cbn [halves] in *. apply IH. Qed.

Lemma end_struct : forall p anchor stop k s delta sf out, model_end_of_stroke p s anchor delta k stop = (sf, out) ->
  exists h, (List.length out + h <= k)%nat /\
    (forall j x, nth_error out j = Some x -> exists y hj, nth_error (s :: out) j = Some y /\
       x = tip_update p y anchor (dadd (t_time y) (halves delta hj)) /\
       fltb (distance (t_pos y) (t_pos x)) stop = false /\ fltb (nearest_point_on_segment (t_pos y) (t_pos x) anchor) f1 = false) /\
    ((out <> [] /\ fltb (distance (t_pos (last out s)) anchor) stop = true) \/
     (List.length out + h = k)%nat \/
     fltb (distance (t_pos (last out s)) (t_pos (tip_update p (last out s) anchor (dadd (t_time (last out s)) (halves delta h))))) stop = true) /\
    (out = [] -> sf = s \/ exists h', sf = tip_update p s anchor (dadd (t_time s) (halves delta h')) /\ fltb (distance (t_pos s) (t_pos sf)) stop = true).
Proof.
  intros p anchor stop. induction k as [|k IH]; intros s delta sf out H; cbn [model_end_of_stroke] in H.
  - injection H as <- <-. exists 0%nat. split; [cbn; lia|]. split; [intros j x NJ; destruct j; discriminate NJ|].
    split; [right; left; reflexivity|]. auto.
  - set (c := tip_update p s anchor (dadd (t_time s) delta)) in *.
    destruct (fltb (distance (t_pos s) (t_pos c)) stop) eqn:E1.
    + injection H as <- <-. exists 0%nat. split; [cbn; lia|].
      split; [intros j x NJ; destruct j; discriminate NJ|]. split.
      * right. right. exact E1.
      * intros _. right. exists 0%nat. split; [reflexivity|exact E1].
    + destruct (fltb (nearest_point_on_segment (t_pos s) (t_pos c) anchor) f1) eqn:E2.
      * destruct (IH s _ _ _ H) as (h & H1 & H2 & H3 & H4). exists (S h). split; [lia|].
        split; [|split].
        -- intros j x NJ. destruct (H2 j x NJ) as (y & hj & Y1 & Y2 & Y3). exists y, (S hj). split; [exact Y1|]. split; [exact Y2|exact Y3].
        -- destruct H3 as [H3|[H3|H3]]; [left; exact H3|right; left; lia|right; right; exact H3].
        -- intros E. destruct (H4 E) as [H5|(h' & H5 & H6)]; [left; exact H5|right]. exists (S h'). auto.
      * destruct (fltb (distance (t_pos c) anchor) stop) eqn:E3.
        -- injection H as <- <-. exists 0%nat. split; [cbn; lia|].
           split; [intros [|j] x NJ; [|destruct j; discriminate NJ]; injection NJ as <-; exists s, 0%nat; auto|].
           split; [left; split; [discriminate|exact E3]|discriminate].
        -- destruct (model_end_of_stroke p c anchor delta k stop) as [sf' o] eqn:E. injection H as <- <-.
           destruct (IH _ _ _ _ E) as (h & H1 & H2 & H3 & H4). exists h. cbn [List.length]. split; [lia|].
           split; [|split].
           ++ intros [|j] x NJ; [injection NJ as <-; exists s, 0%nat; auto|]. cbn [nth_error] in NJ. destruct (H2 j x NJ) as (y & hj & Y1 & Y2). exists y, hj.
              split; [exact Y1|exact Y2].
           ++ rewrite last_cons'. destruct H3 as [[_ H3]|[H3|H3]]; [left; split; [discriminate|exact H3]|right; left; lia|right; right; exact H3].
           ++ discriminate.
Qed.
End Steps.

(** ** One step with a fixed anchor *)
Lemma plus_inv64 : forall x y : float64, is_finite (Bplus mode_NE x y) = true ->
  is_finite x = true /\ is_finite y = true /\ B2R (Bplus mode_NE x y) = r64 (B2R x + B2R y).
Proof.
  intros x y H.
  assert (FX : is_finite x = true) by (destruct x as [s|s| |s m e B]; try reflexivity; destruct y as [u|u| |u m' e' B']; try discriminate H; destruct s, u; discriminate H).
  assert (FY : is_finite y = true) by (destruct y as [s|s| |s m e B]; try reflexivity; destruct x as [u|u| |u m' e' B']; try discriminate H; discriminate FX).
  split; [exact FX|]. split; [exact FY|].
  pose proof (Bplus_correct 53 1024 _ _ mode_NE x y FX FY) as K. destruct (Rlt_bool _ _) eqn:E.
  - destruct K as (K & _). exact K.
  - destruct K as (K & _). rewrite overflow_NE in K. apply B2SF_inf in K. rewrite K in H. discriminate H.
Qed.
Lemma mult_inv64 : forall x y : float64, is_finite (Bmult mode_NE x y) = true ->
  is_finite x = true /\ B2R (Bmult mode_NE x y) = r64 (B2R x * B2R y).
Proof.
  intros x y H.
  assert (FX : is_finite x = true) by (destruct x as [s|s| |s m e B]; try reflexivity; destruct y; discriminate H).
  split; [exact FX|].
  pose proof (Bmult_correct 53 1024 _ _ mode_NE x y) as K. destruct (Rlt_bool _ _) eqn:E.
  - destruct K as (K & _). exact K.
  - rewrite overflow_NE in K. apply B2SF_inf in K. rewrite K in H. discriminate H.
Qed.
Lemma div_inv64 : forall x y : float64, B2R y <> 0 -> is_finite (Bdiv mode_NE x y) = true ->
  B2R (Bdiv mode_NE x y) = r64 (B2R x / B2R y).
Proof.
  intros x y Y H. pose proof (Bdiv_correct 53 1024 _ _ mode_NE x y Y) as K. destruct (Rlt_bool _ _) eqn:E.
  - destruct K as (K & _). exact K.
  - rewrite overflow_NE in K. apply B2SF_inf in K. rewrite K in H. discriminate H.
Qed.
Lemma minus_left64 : forall x y : float64, is_finite (Bminus mode_NE x y) = true -> is_finite x = true.
Proof. intros x y H. destruct x as [s|s| |s m e B]; try reflexivity; destruct y as [u|u| |u m' e' B']; try discriminate H; destruct s, u; discriminate H. Qed.

Lemma coord_fixed : forall (w k c x v dl acc vel pos : float32) (t0 t1 : float64),
  0 < B2R k -> is_finite t0 = true ->
  dl = b64_to_b32 (Bminus mode_NE t1 t0) ->
  acc = Bminus mode_NE (Bdiv mode_NE (Bminus mode_NE w x) k) (Bmult mode_NE c v) ->
  vel = Bplus mode_NE v (Bmult mode_NE dl acc) ->
  pos = Bplus mode_NE x (Bmult mode_NE dl vel) ->
  is_finite pos = true ->
  nearly_spring (B2R k) (B2R c) (B2R t1 - B2R t0) (B2R w + (B2R w - B2R w) * 1) (Rabs (B2R w) + Rabs (B2R w)) (B2R x) (B2R v) (B2R pos) (B2R vel) (B2R acc) /\
  is_finite vel = true /\ is_finite acc = true /\ is_finite t1 = true.
Proof.
  intros w k c x v dl acc vel pos t0 t1 K0 T0 Edl Eacc Evel Epos FP.
  rewrite Epos in FP.
  destruct (Props_FSpring.plus_inv _ _ FP) as (_ & FM & EP). rewrite <- Epos in EP. rewrite Evel in FM. destruct (Props_FSpring.mult_inv _ _ FM) as (FD & FV & EM). rewrite <- Evel in EM.
  destruct (Props_FSpring.plus_inv _ _ FV) as (_ & FM2 & EV). rewrite <- Evel in EV. rewrite Eacc in FM2. destruct (Props_FSpring.mult_inv _ _ FM2) as (_ & FA & EM2). rewrite <- Eacc in EM2.
  destruct (Props_FSpring.minus_inv _ _ FA) as (FQ & FC & EA). rewrite <- Eacc in EA. destruct (Props_FSpring.mult_inv _ _ FC) as (_ & _ & EC).
  destruct (Props_FSpring.div_inv _ _ (Rgt_not_eq _ _ K0) FQ) as (FS & EQ). destruct (Props_FSpring.minus_inv _ _ FS) as (FW & _ & ES).
  assert (FM64 : is_finite (Bminus mode_NE t1 t0) = true) by (rewrite Edl in FD; exact (d2f_finite _ FD)).
  pose proof (minus_left64 _ _ FM64) as T1.
  assert (ED : B2R dl = r32 (r64 (B2R t1 - B2R t0))).
  { rewrite Edl in FD |- *. rewrite d2f_inv by assumption. f_equal. apply minus_inv64; assumption. }
  split; [|split; [rewrite Evel; exact FV|split; [rewrite Eacc; exact FA|exact T1]]]. split; [|split].
  - pose proof (Rabs_pos (B2R w)). pose proof eta_0. assert (U0 : 0 < u24) by (unfold u24; lra).
    rewrite EA, EQ, EC, ES. apply acc_error; [exact K0|lra| |].
    + replace (B2R w + (B2R w - B2R w) * 1) with (B2R w) by ring. lra.
    + replace (B2R w - (B2R w + (B2R w - B2R w) * 1)) with 0 by ring. rewrite Rabs_R0.
      apply Rplus_le_le_0_compat; [apply Rmult_le_pos; lra|lra].
  - rewrite EV, EM2, ED. apply euler_error.
  - rewrite EP, EM, ED. apply euler_error.
Qed.

(** Halving a number of binary64. *)
Lemma half_error : forall x : float64, Rabs (r64 (B2R x * / 2) - B2R x * / 2) <= bpow radix2 (-1075).
Proof.
  intros x. pose proof (fmt_B2R 53 1024 x) as G. unfold fmt in G. apply FLT_format_generic in G; [|exact eq_refl].
  destruct G as [[m e] G1 G2 G3]. cbn [Fnum Fexp] in *. unfold r64, rnd.
  destruct (Z_le_gt_dec (-1073) e) as [L|L].
  - rewrite round_generic; [rewrite Rminus_diag_eq by reflexivity; rewrite Rabs_R0; apply bpow_ge_0|apply valid_rnd_N|].
    apply generic_format_FLT. exists (Float radix2 m (e - 1)); cbn [Fnum Fexp]; [|exact G2|change (SpecFloat.emin 53 1024) with (-1074)%Z; lia].
    rewrite G1. unfold F2R. cbn [Fnum Fexp]. replace (e - 1)%Z with (e + -1)%Z by lia. rewrite bpow_plus. change (bpow radix2 (-1)) with (/ 2). ring.
  - assert (EE : e = (-1074)%Z) by (cbn in G3; lia).
    eapply Rle_trans; [apply error_le_half_ulp; exact _|].
    assert (UL : ulp radix2 (FLT_exp (-1074) 53) (B2R x * / 2) = bpow radix2 (-1074)).
    { apply ulp_FLT_small; [exact eq_refl|]. rewrite G1, EE. unfold F2R. cbn [Fnum Fexp]. rewrite !Rabs_mult, (Rabs_pos_eq (bpow _ _)) by apply bpow_ge_0. rewrite (Rabs_pos_eq (/ 2)) by lra.
      rewrite bpow_plus. rewrite <- abs_IZR.
      assert (IZR (Z.abs m) < bpow radix2 53) by (rewrite <- (IZR_Zpower radix2 53) by lia; apply IZR_lt; exact G2).
      pose proof (bpow_gt_0 radix2 (-1074)). pose proof (IZR_le 0 (Z.abs m) ltac:(lia)). set (b := bpow radix2 (-1074)) in *. set (c := bpow radix2 53) in *.
      set (mm := IZR (Z.abs m)) in *. nra. }
    change (SpecFloat.fexp 53 1024) with (FLT_exp (-1074) 53). rewrite UL. change (-1074)%Z with (1 + -1075)%Z. rewrite bpow_plus. change (bpow radix2 1) with 2. lra.
Qed.

Section FEnd.
Variable acosf : float32 -> float32.
Let A := ieee acosf.
Local Existing Instance A.

Definition finite_vec (u : Vec2) : Prop := is_finite (vx u : float32) = true /\ is_finite (vy u : float32) = true.
Definition gap2 (u v : Vec2) : R :=
  (real32 (vx v) - real32 (vx u)) * (real32 (vx v) - real32 (vx u)) + (real32 (vy v) - real32 (vy u)) * (real32 (vy v) - real32 (vy u)).
Lemma far_gap : forall u v, 0 <= far u v /\ far u v * far u v = gap2 u v.
Proof. intros u v. unfold far, gap2. split; [apply sqrt_pos|]. apply sqrt_sqrt. apply Rplus_le_le_0_compat; apply Rle_0_sqr. Qed.

Lemma minus_moderate : forall x y : float32, is_finite x = true -> is_finite y = true -> Rabs (B2R x) <= bpow radix2 60 -> Rabs (B2R y) <= bpow radix2 60 ->
  is_finite (Bminus mode_NE x y) = true /\ B2R (Bminus mode_NE x y) = r32 (B2R x - B2R y) /\ Rabs (B2R (Bminus mode_NE x y)) <= bpow radix2 61.
Proof.
  intros x y FX FY LX LY. assert (K : Rabs (B2R x - B2R y) <= bpow radix2 61).
  { change 61%Z with (1 + 60)%Z. rewrite bpow_plus. change (bpow radix2 1) with 2. unfold Rminus. eapply Rle_trans; [apply Rabs_triang|]. rewrite Rabs_Ropp. lra. }
  assert (FM : fmt 24 128 (bpow radix2 61)) by (apply fmt_bpow; [reflexivity|lia]).
  destruct (minus_fin 24 128 _ _ x y FX FY) as [M1 M2]; [eapply small_fmt_bound; [reflexivity|exact FM|apply bpow_lt; lia|exact K]|].
  split; [exact M1|]. split; [exact M2|]. rewrite M2. apply rnd_abs_le; [reflexivity|exact FM|exact K].
Qed.

(** A computed distance of at least [stop]. *)
Lemma dist_false : forall u v (stop : float32), fltb (distance u v) stop = false -> finite_vec u -> finite_vec v -> moderate_point u -> moderate_point v ->
  is_finite stop = true -> moderate_stop stop -> (1 - 10 * u24) * (B2R stop * B2R stop) <= gap2 u v.
Proof.
  intros u v stop H [U1 U2] [V1 V2] [M1 M2] [N1 N2] FS [S1 S2]. unfold moderate_point, moderate_stop, gap2, real32 in *. unfold A in *.
  destruct (minus_moderate _ _ V1 U1 N1 M1) as (X1 & X2 & X3). destruct (minus_moderate _ _ V2 U2 N2 M2) as (Y1 & Y2 & Y3).
  destruct (magnitude_le acosf 61 (vsub v u) ltac:(lia)) as [F1 _]; [split; split; assumption|].
  cbn [distance magnitude vsub vx vy fhypot fsub fltb ieee] in H, F1.
  pose proof (sub_rel _ _ V1 U1) as RX. pose proof (sub_rel _ _ V2 U2) as RY. rewrite <- X2 in RX. rewrite <- Y2 in RY.
  set (dx := Bminus mode_NE (vx v) (vx u) : float32) in *. set (dy := Bminus mode_NE (vy v) (vy u) : float32) in *.
  destruct (hyp64_val dx dy X1 Y1) as (H1 & H2 & H3).
  apply (ltb_false_R 24 128) in H; [|exact F1|exact FS]. rewrite H1 in H, F1. rewrite (d2f_inv _ H2 F1) in H.
  assert (Z0 : 0 <= B2R (hyp64 dx dy)) by (rewrite H3; apply rnd_ge0; [reflexivity|apply sqrt_pos]).
  pose proof (r32_error (B2R (hyp64 dx dy))) as E. rewrite (Rabs_pos_eq _ Z0) in E. apply Rabs_le_inv in E.
  assert (L : (1 - 7 * u24) * (B2R stop * B2R stop) <= B2R dx * B2R dx + B2R dy * B2R dy) by (apply hyp_lower; [exact S1|rewrite <- H3; lra]).
  apply rel_square in RX, RY. pose proof (Rle_0_sqr (B2R stop)) as PS. unfold Rsqr in PS.
  set (ss := B2R stop * B2R stop) in *. unfold u24 in *. lra.
Qed.

(** A computed distance less than [stop]. *)
Lemma dist_true : forall u v (stop : float32), fltb (distance u v) stop = true -> is_finite stop = true -> moderate_stop stop ->
  finite_vec u /\ finite_vec v /\ gap2 u v <= (1 + 11 * u24) * (B2R stop * B2R stop).
Proof.
  intros u v stop H FS [S1 S2]. unfold moderate_stop, gap2, real32 in *. unfold finite_vec, A in *. cbn [distance magnitude vsub vx vy fhypot fsub fltb ieee] in H.
  set (dx := Bminus mode_NE (vx v) (vx u) : float32) in *. set (dy := Bminus mode_NE (vy v) (vy u) : float32) in *.
  assert (FX : is_finite dx = true /\ is_finite dy = true).
  { clear - H FS. clearbody dx dy. assert (IB : forall b, Bltb (B754_infinity false) stop = b -> b = false) by (intros b <-; destruct stop as [| | |[] ? ? ?]; try reflexivity; discriminate FS).
    assert (NB : Bltb B754_nan stop = false) by apply ltb_nan_l.
    destruct dx as [sx|sx| |sx mx ex Bx], dy as [sy|sy| |sy my ey By]; try (split; reflexivity);
      (unfold b_hypot in H; cbn [is_inf orb] in H; try (rewrite (IB _ eq_refl) in H; discriminate H); exfalso).
    all: change (Bmult mode_NE (b32_to_b64 B754_nan) (b32_to_b64 B754_nan)) with (B754_nan : float64) in H; rewrite ?plus_nan_l, ?plus_nan_r in H;
      change (b64_to_b32 (Bsqrt mode_NE (B754_nan : float64))) with (B754_nan : float32) in H; rewrite NB in H; discriminate H. }
  destruct FX as [FX FY]. destruct (hyp64_val dx dy FX FY) as (H1 & H2 & H3). rewrite H1 in H.
  destruct (minus_inv _ _ FX) as (V1 & U1 & X2). fold dx in X2. destruct (minus_inv _ _ FY) as (V2 & U2 & Y2). fold dy in Y2.
  split; [split; assumption|]. split; [split; assumption|].
  pose proof (sub_rel _ _ V1 U1) as RX. pose proof (sub_rel _ _ V2 U2) as RY. rewrite <- X2 in RX. rewrite <- Y2 in RY.
  assert (Z0 : 0 <= B2R (hyp64 dx dy)) by (rewrite H3; apply rnd_ge0; [reflexivity|apply sqrt_pos]).
  assert (F1 : is_finite (b64_to_b32 (hyp64 dx dy)) = true).
  { pose proof (d2f_nonneg _ (nonneg_fin 53 1024 _ H2 Z0)) as N. clear - N H FS. set (d := b64_to_b32 (hyp64 dx dy)) in *. clearbody d.
    destruct d as [s|s| |s m e B]; try reflexivity.
    - exfalso. unfold nonneg32, nonneg in N. rewrite N in H. destruct stop as [s'|s'| |s' m e B]; try discriminate H; try discriminate FS; destruct s'; discriminate H.
    - exfalso. rewrite ltb_nan_l in H. discriminate H. }
  apply (ltb_R 24 128) in H; [|exact F1|exact FS]. rewrite (d2f_inv _ H2 F1) in H.
  pose proof (r32_error (B2R (hyp64 dx dy))) as E. rewrite (Rabs_pos_eq _ Z0) in E. apply Rabs_le_inv in E.
  assert (L : B2R dx * B2R dx + B2R dy * B2R dy <= (1 + 8 * u24) * (B2R stop * B2R stop)) by (apply hyp_upper; [exact S1|rewrite <- H3; lra]).
  apply rel_square in RX, RY. pose proof (Rle_0_sqr (B2R stop)) as PS. unfold Rsqr in PS. 
  set (ss := B2R stop * B2R stop) in *. set (gx := B2R (vx v) - B2R (vx u)) in *. set (gy := B2R (vy v) - B2R (vy u)) in *.
  assert (0 <= gx * gx) by apply Rle_0_sqr. assert (0 <= gy * gy) by apply Rle_0_sqr. unfold u24 in *. lra.
Qed.

Lemma clamp_not_less : forall q : float32, is_finite q = true -> fltb (clamp01 q) f1 = false -> 1 <= B2R q.
Proof.
  intros q FQ H. unfold clamp01, std_clamp in H. destruct (f0_fin acosf) as [Z1 Z2]. destruct (f1_fin acosf) as [O1 O2]. unfold A in *. cbn [fltb ieee] in H.
  set (z := f0 (A := ieee acosf) : float32) in *. set (o := f1 (A := ieee acosf) : float32) in *. clearbody z o.
  destruct (Bltb q z) eqn:E1.
  - exfalso. assert (K : Bltb z o = true) by (apply (ltb_R 24 128); [exact Z1|exact O1|lra]). rewrite K in H. discriminate H.
  - destruct (Bltb o q) eqn:E2.
    + apply (ltb_R 24 128) in E2; [|exact O1|exact FQ]. lra.
    + apply (ltb_false_R 24 128) in H; [|exact FQ|exact O1]. lra.
Qed.

Lemma ge_one : forall z, 1 <= r32 z -> 1 - 2 * u24 <= z.
Proof.
  intros z H. destruct (Rle_lt_dec z 0) as [N|N].
  - exfalso. pose proof (rnd_le0 24 128 eq_refl z N) as K. change (rnd 24 128 z) with (r32 z) in K. lra.
  - pose proof (r32_error z) as E. rewrite (Rabs_pos_eq z) in E by lra. apply Rabs_le_inv in E. pose proof eta_small as ES. unfold u24 in *.
    assert (EE : eta <= / 1099511627776) by (unfold eta; change (/ 1099511627776) with (bpow radix2 (-40)); apply bpow_le; lia). lra.
Qed.

Lemma mult_moderate : forall x y : float32, is_finite x = true -> is_finite y = true -> Rabs (B2R x) <= bpow radix2 61 -> Rabs (B2R y) <= bpow radix2 61 ->
  is_finite (Bmult mode_NE x y) = true /\ B2R (Bmult mode_NE x y) = r32 (B2R x * B2R y) /\ Rabs (B2R (Bmult mode_NE x y)) <= bpow radix2 122.
Proof.
  intros x y FX FY LX LY. assert (K : Rabs (B2R x * B2R y) <= bpow radix2 122).
  { change 122%Z with (61 + 61)%Z. rewrite bpow_plus, Rabs_mult. apply Rmult_le_compat; try apply Rabs_pos; assumption. }
  assert (FM : fmt 24 128 (bpow radix2 122)) by (apply fmt_bpow; [reflexivity|lia]).
  destruct (mult_fin 24 128 _ _ x y FX FY) as [M1 M2]; [eapply small_fmt_bound; [reflexivity|exact FM|apply bpow_lt; lia|exact K]|].
  split; [exact M1|]. split; [exact M2|]. rewrite M2. apply rnd_abs_le; [reflexivity|exact FM|exact K].
Qed.
Lemma dot_moderate : forall x1 y1 x2 y2 : float32, is_finite x1 = true -> is_finite y1 = true -> is_finite x2 = true -> is_finite y2 = true ->
  Rabs (B2R x1) <= bpow radix2 61 -> Rabs (B2R y1) <= bpow radix2 61 -> Rabs (B2R x2) <= bpow radix2 61 -> Rabs (B2R y2) <= bpow radix2 61 ->
  let d := Bplus mode_NE (Bmult mode_NE x1 x2) (Bmult mode_NE y1 y2) in
  is_finite d = true /\ B2R d = r32 (r32 (B2R x1 * B2R x2) + r32 (B2R y1 * B2R y2)).
Proof.
  intros x1 y1 x2 y2 F1 F2 F3 F4 L1 L2 L3 L4 d. destruct (mult_moderate _ _ F1 F3 L1 L3) as (A1 & A2 & A3). destruct (mult_moderate _ _ F2 F4 L2 L4) as (B1 & B2 & B3).
  assert (K : Rabs (B2R (Bmult mode_NE x1 x2) + B2R (Bmult mode_NE y1 y2)) <= bpow radix2 123).
  { change 123%Z with (1 + 122)%Z. rewrite bpow_plus. change (bpow radix2 1) with 2. eapply Rle_trans; [apply Rabs_triang|]. lra. }
  assert (FM : fmt 24 128 (bpow radix2 123)) by (apply fmt_bpow; [reflexivity|lia]).
  destruct (plus_fin 24 128 _ _ _ _ A1 B1) as [P1 P2]; [eapply small_fmt_bound; [reflexivity|exact FM|apply bpow_lt; lia|exact K]|].
  split; [exact P1|]. rewrite <- A2, <- B2. exact P2.
Qed.

Lemma abs_le_far : forall x y r, 0 <= r -> r * r = x * x + y * y -> Rabs x <= r /\ Rabs y <= r.
Proof.
  intros x y r R0 E. pose proof (Rle_0_sqr x) as PX. pose proof (Rle_0_sqr y) as PY. unfold Rsqr in *.
  split; apply Rsqr_incr_0_var; try exact R0; unfold Rsqr; rewrite <- Rabs_mult, Rabs_pos_eq by assumption; lra.
Qed.

(** A step that is at least [stop] long and not past the anchor goes nearer to it. *)
Lemma nearest_closer : forall s c w (stop : float32), finite_vec s -> finite_vec c -> finite_vec w -> moderate_point s -> moderate_point c -> moderate_point w ->
  is_finite stop = true -> moderate_stop stop -> fltb (distance s c) stop = false -> fltb (nearest_point_on_segment s c w) f1 = false ->
  far s w <= 524288 * B2R stop -> gap2 c w < gap2 s w.
Proof.
  intros s c w stop FS FC FW MS MC MW FST MST H N P. pose proof (dist_false s c stop H FS FC MS MC FST MST) as L.
  destruct MST as [ST _]. destruct (eta_stop _ ST) as [ES _]. pose proof (bpow_gt_0 radix2 (-60)) as P60.
  change (real32 stop) with (B2R stop) in *.
  destruct (far_gap s w) as [P0 PP]. destruct (far_gap s c) as [L0 LL]. set (Pd := far s w) in *. set (Ld := far s c) in *. clearbody Pd Ld.
  destruct FS as [S1 S2]. destruct FC as [C1 C2]. destruct FW as [W1 W2]. destruct MS as [S3 S4]. destruct MC as [C3 C4]. destruct MW as [W3 W4].
  unfold moderate_point, gap2, real32 in *. unfold A in *.
  destruct (minus_moderate _ _ C1 S1 C3 S3) as (X1 & X2 & X3). destruct (minus_moderate _ _ C2 S2 C4 S4) as (Y1 & Y2 & Y3).
  destruct (minus_moderate _ _ W1 S1 W3 S3) as (U1 & U2 & U3). destruct (minus_moderate _ _ W2 S2 W4 S4) as (V1 & V2 & V3).
  pose proof (sub_rel _ _ C1 S1) as RX. pose proof (sub_rel _ _ C2 S2) as RY. pose proof (sub_rel _ _ W1 S1) as RU. pose proof (sub_rel _ _ W2 S2) as RV.
  rewrite <- X2 in RX. rewrite <- Y2 in RY. rewrite <- U2 in RU. rewrite <- V2 in RV.
  unfold nearest_point_on_segment in N. destruct (veqb s c) eqn:VE.
  { exfalso. destruct (f0_fin acosf) as [Z1 Z2]. destruct (f1_fin acosf) as [O1 O2]. cbn [fltb ieee] in N. apply (ltb_false_R 24 128) in N; [lra|exact Z1|exact O1]. }
  clear VE. destruct (dot_moderate _ _ _ _ U1 V1 X1 Y1 U3 V3 X3 Y3) as [D1 D2]. destruct (dot_moderate _ _ _ _ X1 Y1 X1 Y1 X3 Y3 X3 Y3) as [E1 E2].
  cbn [vsub vdot vx vy fadd fmul fsub fdiv ieee] in N.
  set (sx := Bminus mode_NE (vx c) (vx s) : float32) in *. set (sy := Bminus mode_NE (vy c) (vy s) : float32) in *.
  set (px := Bminus mode_NE (vx w) (vx s) : float32) in *. set (py := Bminus mode_NE (vy w) (vy s) : float32) in *.
  set (df := Bplus mode_NE (Bmult mode_NE px sx) (Bmult mode_NE py sy) : float32) in *. set (lf := Bplus mode_NE (Bmult mode_NE sx sx) (Bmult mode_NE sy sy) : float32) in *.
  set (gx := B2R (vx c) - B2R (vx s)) in *. set (gy := B2R (vy c) - B2R (vy s)) in *. set (hx := B2R (vx w) - B2R (vx s)) in *. set (hy := B2R (vy w) - B2R (vy s)) in *.
  destruct (abs_le_far gx gy Ld L0 LL) as [LX LY]. destruct (abs_le_far hx hy Pd P0 PP) as [PX PY].
  assert (SS : 0 < B2R stop * B2R stop) by (apply Rmult_lt_0_compat; lra).
  assert (EL : eta <= u24 * / 4 * (Ld * Ld)) by (rewrite LL; set (ss := B2R stop * B2R stop) in *; unfold u24 in *; lra).
  assert (LP : 0 < Ld) by (destruct L0 as [L0|L0]; [exact L0|exfalso; rewrite <- L0 in LL; unfold u24 in *; lra]).
  pose proof (dot_error Pd Ld hx hy gx gy _ _ _ _ P0 L0 EL PX PY LX LY RU RV RX RY) as DE. rewrite <- D2 in DE.
  pose proof (dot_error Ld Ld gx gy gx gy _ _ _ _ L0 L0 EL LX LY LX LY RX RY RX RY) as LE. rewrite <- E2 in LE.
  assert (PL : Pd <= 600000 * Ld).
  { assert (K : 9 / 10 * B2R stop <= Ld).
    { apply Rsqr_incr_0_var; [|exact L0]. unfold Rsqr. rewrite LL. set (ss := B2R stop * B2R stop) in *. replace (9 / 10 * B2R stop * (9 / 10 * B2R stop)) with (81 / 100 * ss) by (unfold ss; field). unfold u24 in L. lra. }
    lra. }
  assert (LLP : 0 < Ld * Ld) by (apply Rmult_lt_0_compat; assumption).
  assert (PLP : 0 <= Pd * Ld <= 600000 * (Ld * Ld)) by (split; [apply Rmult_le_pos; lra|rewrite <- Rmult_assoc; apply Rmult_le_compat_r; lra]).
  assert (LE2 : Rabs (B2R lf - (gx * gx + gy * gy)) <= 10 * u24 * (Ld * Ld)) by (eapply Rle_trans; [exact LE|]; lra).
  pose proof (Rabs_le_inv _ _ LE2) as LE3. rewrite <- LL in LE3.
  assert (LF : 0 < B2R lf) by (unfold u24 in LE3; lra).
  assert (DB : Rabs (hx * gx + hy * gy) <= 2 * (Pd * Ld)).
  { eapply Rle_trans; [apply Rabs_triang|]. rewrite !Rabs_mult.
    assert (Rabs hx * Rabs gx <= Pd * Ld) by (apply Rmult_le_compat; try apply Rabs_pos; assumption).
    assert (Rabs hy * Rabs gy <= Pd * Ld) by (apply Rmult_le_compat; try apply Rabs_pos; assumption). lra. }
  pose proof (size _ _ _ _ DE DB) as DS.
  assert (QS : Rabs (B2R df / B2R lf) <= IZR (2 ^ 127)).
  { unfold Rdiv. rewrite Rabs_mult, (Rabs_pos_eq (/ B2R lf)) by (apply Rlt_le, Rinv_0_lt_compat; exact LF).
    apply Rle_trans with 16777216; [|apply IZR_le; lia].
    apply Rmult_le_reg_r with (B2R lf); [exact LF|]. rewrite Rmult_assoc, Rinv_l by lra. rewrite Rmult_1_r.
    set (l2 := Ld * Ld) in *. set (pl := Pd * Ld) in *. unfold u24 in *. lra. }
  destruct (div_fin 24 128 _ _ df lf D1 (Rgt_not_eq _ _ LF) (small_le32 _ QS)) as [Q1 Q2].
  pose proof (clamp_not_less _ Q1 N) as Q3. rewrite Q2 in Q3. apply ge_one in Q3.
  assert (Q4 : (1 - 2 * u24) * B2R lf <= B2R df).
  { apply Rmult_le_reg_r with (/ B2R lf); [apply Rinv_0_lt_compat; exact LF|]. rewrite Rmult_assoc, Rinv_r by lra. rewrite Rmult_1_r. exact Q3. }
  pose proof (closer_real Pd Ld (hx * gx + hy * gy) (gx * gx + gy * gy) (B2R df) (B2R lf) LP P0 PL (eq_sym LL) DE LE2 Q4) as R.
  rewrite PP in R. unfold gx, gy, hx, hy in *. lra.
Qed.

(** *** Times *)
Lemma half64 : is_finite (ddiv (dofZ 1) (dofZ 2) : float64) = true /\ B2R (ddiv (dofZ 1) (dofZ 2) : float64) = / 2.
Proof.
  unfold A. cbn [ddiv dofZ ieee]. destruct (ofZ_64 1 eq_refl) as [F1 E1]. destruct (ofZ_64 2 eq_refl) as [F2 E2].
  set (o := binary_normalize 53 1024 _ _ _ 1 _ _) in *. set (w := binary_normalize 53 1024 _ _ _ 2 _ _) in *. clearbody o w. cbn in E1, E2.
  destruct (div_fin 53 1024 _ _ o w F1) as [F3 E3]; [lra| |].
  { rewrite E1, E2. apply small_le64. rewrite Rabs_pos_eq by lra. apply Rle_trans with 1; [lra|apply IZR_le; lia]. }
  split; [exact F3|]. rewrite E3, E1, E2. replace (1 / 2) with (bpow radix2 (-1)) by (cbn; lra). rewrite rnd_id; [reflexivity|]. apply fmt_bpow; [reflexivity|lia].
Qed.

Lemma halves_value : forall h (delta : float64), is_finite (halves delta h : float64) = true ->
  is_finite delta = true /\ Rabs (B2R (halves delta h : float64) - B2R delta / 2 ^ h) <= bpow radix2 (-1074).
Proof.
  induction h as [|h IH]; intros delta H.
  - split; [exact H|]. cbn [halves pow]. unfold A. cbn [halves]. replace (B2R delta - B2R delta / 1) with 0 by field. rewrite Rabs_R0. apply bpow_ge_0.
  - rewrite halves_last in *. destruct half64 as [_ HE]. set (hf := ddiv (dofZ 1) (dofZ 2)) in *. clearbody hf.
    destruct (IH delta) as [FD ED]; [|split; [exact FD|]].
    { unfold A in *. cbn [dmul ieee] in H. apply mult_inv64 in H. apply H. }
    set (x := halves (A := A) delta h) in *. clearbody x. unfold A in *. cbn [dmul ieee] in *. apply mult_inv64 in H. destruct H as [FX EX]. rewrite EX, HE.
    pose proof (half_error x) as HX. apply Rabs_le_inv in ED, HX. cbn [pow].
    replace (B2R delta / (2 * 2 ^ h)) with (B2R delta / 2 ^ h * / 2) by (field; apply pow_nonzero; lra).
    set (z := B2R delta / 2 ^ h) in *. apply Rabs_le. change (-1074)%Z with (1 + -1075)%Z in *. rewrite bpow_plus in *. change (bpow radix2 1) with 2 in *. lra.
Qed.

Lemma time_law : forall (t rate : float64) h, 0 < B2R rate -> is_finite (dadd t (halves (ddiv (dofZ 1) rate) h) : float64) = true ->
  is_finite t = true /\ step_time (B2R t) (1 / B2R rate / 2 ^ h) (B2R (dadd t (halves (ddiv (dofZ 1) rate) h) : float64)).
Proof.
  intros t rate h R0 H. unfold A in *. cbn [dadd ieee] in *. apply plus_inv64 in H. destruct H as (FT & FH & E). split; [exact FT|].
  destruct (halves_value h _ FH) as [FD ED]. unfold A in *. match type of FH with is_finite ?y = true => set (x := y) in * end. clearbody x.
  unfold A in *. cbn [ddiv dofZ ieee] in *. destruct (ofZ_64 1 eq_refl) as [F1 E1]. set (o := binary_normalize 53 1024 _ _ _ 1 _ _) in *. clearbody o.
  pose proof (div_inv64 _ _ (Rgt_not_eq _ _ R0) FD) as DV. rewrite E1 in DV. rewrite DV in ED. clear DV.
  change (IZR 1) with 1 in ED. assert (G0 : 0 < 1 / B2R rate) by (apply Rdiv_lt_0_compat; lra). set (g := 1 / B2R rate) in *. clearbody g.
  pose proof (r64_error g) as RG. rewrite (Rabs_pos_eq g) in RG by lra. apply Rabs_le_inv in RG.
  assert (PH : 1 <= 2 ^ h) by (apply pow_R1_Rle; lra). assert (IH : 0 < / 2 ^ h <= 1) by (split; [apply Rinv_0_lt_compat; lra|rewrite <- Rinv_1; apply Rinv_le_contravar; lra]).
  unfold Rdiv in ED. unfold step_time, Rdiv. set (c := / 2 ^ h) in *. clearbody c. pose proof eta_0 as E0.
  assert (EB : bpow radix2 (-1074) <= eta) by (unfold eta; apply bpow_le; lia).
  assert (K1 : (u53 * g + eta) * c <= u53 * (g * c) + eta) by (assert (eta * c <= eta * 1) by (apply Rmult_le_compat_l; lra); lra).
  assert (K2 : Rabs (r64 g * c - g * c) <= u53 * (g * c) + eta).
  { replace (r64 g * c - g * c) with ((r64 g - g) * c) by ring. rewrite Rabs_mult, (Rabs_pos_eq c) by lra. eapply Rle_trans; [|exact K1].
    apply Rmult_le_compat_r; [lra|]. apply Rabs_le. lra. }
  assert (D0 : 0 < g * c) by (apply Rmult_lt_0_compat; lra). set (dt := g * c) in *. set (z := r64 g * c) in *. clearbody dt z.
  apply Rabs_le_inv in ED, K2. rewrite E. pose proof (r64_error (B2R t + B2R x)) as RE. pose proof (Rabs_triang (B2R t) (B2R x)) as T.
  assert (AX : Rabs (B2R x) <= dt + u53 * dt + 2 * eta) by (apply Rabs_le; unfold u53 in *; lra).
  assert (TX : u53 * Rabs (B2R t + B2R x) <= u53 * (Rabs (B2R t) + (dt + u53 * dt + 2 * eta))) by (apply Rmult_le_compat_l; [unfold u53; lra|lra]).
  apply Rabs_le_inv in RE. pose proof (Rabs_pos (B2R t)) as P0. rewrite tiny_eta. set (at0 := Rabs (B2R t)) in *. clearbody at0. apply Rabs_le. unfold u53, ppm in *. lra.
Qed.

(** *** One step *)
Definition of_tip (s : TipState) : Result := mkResult (t_pos s) (t_vel s) (t_acc s) (t_time s) f0 f0 f0.

Lemma fixed_law : forall pp s prev w (t : float64) r, same_tip acosf prev s -> same_tip acosf r (tip_update pp s w t) -> 0 < B2R (pp_spring pp : float32) ->
  float_spring_law pp prev r w w 1.
Proof.
  intros pp s prev w t r ([[_ PX] [_ PY]] & [[_ VX] [_ VY]] & _ & [FT PT]) ([[FX QX] [FY QY]] & [[_ WX] [_ WY]] & [[_ BX] [_ BY]] & [FT' QT]) K.
  set (s' := tip_update pp s w t) in *.
  destruct (tip_x pp s w t) as (X1 & X2 & X3 & X4). destruct (tip_y pp s w t) as (Y1 & Y2 & Y3).
  fold s' in X1, X2, X3, X4, Y1, Y2, Y3. rewrite X4 in FT', QT. clearbody s'.
  unfold float_spring_law, real32, real64. cbv zeta. unfold A in *. rewrite <- PX, <- PY, <- VX, <- VY, <- QX, <- QY, <- WX, <- WY, <- BX, <- BY, <- PT, <- QT.
  split.
  - exact (proj1 (coord_fixed _ _ _ _ _ _ _ _ _ _ _ K FT eq_refl X3 X2 X1 FX)).
  - exact (proj1 (coord_fixed _ _ _ _ _ _ _ _ _ _ _ K FT eq_refl Y3 Y2 Y1 FY)).
Qed.

Lemma step_same : forall pp s prev w (t : float64), same_tip acosf prev s -> finite_vec (t_pos (tip_update pp s w t)) -> 0 < B2R (pp_spring pp : float32) ->
  same_tip acosf (of_tip (tip_update pp s w t)) (tip_update pp s w t).
Proof.
  intros pp s prev w t (_ & _ & _ & [FT _]) [FX FY] K.
  set (s' := tip_update pp s w t) in *.
  destruct (tip_x pp s w t) as (X1 & X2 & X3 & X4). destruct (tip_y pp s w t) as (Y1 & Y2 & Y3).
  fold s' in X1, X2, X3, X4, Y1, Y2, Y3. clearbody s'. unfold A in *.
  destruct (coord_fixed _ _ _ _ _ _ _ _ _ _ _ K FT eq_refl X3 X2 X1 FX) as (_ & VX & AX & TX).
  destruct (coord_fixed _ _ _ _ _ _ _ _ _ _ _ K FT eq_refl Y3 Y2 Y1 FY) as (_ & VY & AY & _).
  unfold of_tip. repeat split; cbn [r_pos r_vel r_acc r_time]; try assumption. rewrite X4. exact TX.
Qed.

Lemma far_same : forall u v u' v', Props_FSpring.same_vec acosf u u' -> Props_FSpring.same_vec acosf v v' -> far u v = far u' v'.
Proof. intros u v u' v' [[_ A1] [_ A2]] [[_ B1] [_ B2]]. unfold far, real32. unfold A in *. rewrite A1, A2, B1, B2. reflexivity. Qed.
Lemma same_refl : forall u, finite_vec u -> Props_FSpring.same_vec acosf u u.
Proof. intros u [F1 F2]. repeat split; assumption. Qed.
Lemma same_finite : forall u v, Props_FSpring.same_vec acosf u v -> finite_vec v.
Proof. intros u v [[F1 _] [F2 _]]. split; assumption. Qed.
Lemma same_moderate : forall u v, Props_FSpring.same_vec acosf u v -> moderate_point u -> moderate_point v.
Proof. intros u v [[_ E1] [_ E2]] [M1 M2]. unfold moderate_point, real32 in *. unfold A in *. rewrite E1, E2. split; assumption. Qed.

Lemma far_lower : forall u v (stop : float32), 0 < B2R stop -> (1 - 10 * u24) * (B2R stop * B2R stop) <= gap2 u v -> (1 - ppm) * B2R stop <= far u v.
Proof.
  intros u v stop S0 H. destruct (far_gap u v) as [F0 FF]. apply Rsqr_incr_0_var; [|exact F0]. unfold Rsqr. rewrite FF.
  assert (SS : 0 < B2R stop * B2R stop) by (apply Rmult_lt_0_compat; assumption).
  replace ((1 - ppm) * B2R stop * ((1 - ppm) * B2R stop)) with ((1 - ppm) * (1 - ppm) * (B2R stop * B2R stop)) by ring. set (ss := B2R stop * B2R stop) in *. unfold ppm, u24 in *. lra.
Qed.
Lemma far_upper : forall u v (stop : float32), 0 < B2R stop -> gap2 u v <= (1 + 11 * u24) * (B2R stop * B2R stop) -> far u v <= (1 + ppm) * B2R stop.
Proof.
  intros u v stop S0 H. destruct (far_gap u v) as [F0 FF]. apply Rsqr_incr_0_var; [|unfold ppm; lra]. unfold Rsqr. rewrite FF.
  assert (SS : 0 < B2R stop * B2R stop) by (apply Rmult_lt_0_compat; assumption).
  replace ((1 + ppm) * B2R stop * ((1 + ppm) * B2R stop)) with ((1 + ppm) * (1 + ppm) * (B2R stop * B2R stop)) by ring. set (ss := B2R stop * B2R stop) in *. unfold ppm, u24 in *. lra.
Qed.

(** *** The way to the pen-up point *)
Lemma along_law : forall fuel pp a ta b tb n tip tip1 tips prev out, 0 < B2R (pp_spring pp : float32) ->
  update_along_path pp tip a ta b tb n = Ret (tip1, tips) -> Forall2 (shows fuel) tips out -> same_tip acosf prev tip -> Forall finite_motion out ->
  float_drawn_along pp prev a b out /\ same_tip acosf (last out prev) tip1.
Proof.
  intros fuel pp a ta b tb n tip tip1 tips prev out K UA SH SP F.
  unfold update_along_path in UA. destruct (Z.leb INT_MAX n) eqn:LN; [discriminate UA|]. apply Z.leb_gt in LN. apply ret_inj in UA.
  destruct (Z_lt_le_dec n 1) as [N|N].
  - replace (Z.to_nat n) with 0%nat in UA by lia. cbn [path_loop] in UA. injection UA as <- <-. inversion SH; subst. split; [|exact SP].
    intros j r NJ. destruct j; discriminate NJ.
  - destruct (path_law acosf fuel pp a ta b tb n ltac:(lia) K (Z.to_nat n) 1 tip prev tip1 tips out) as [L1 L2]; try assumption; try lia.
    assert (LEN : INR (List.length out) = IZR n).
    { assert (LL : List.length out = Z.to_nat n) by (etransitivity; [symmetry; exact (Forall2_len _ _ _ SH)|exact (path_length _ _ _ _ _ _ _ _ _ _ _ _ UA)]).
      rewrite LL, INR_IZR_INZ. f_equal. lia. }
    split; [|exact L2]. unfold A in *. intros j r NJ. rewrite LEN. exact (L1 j r NJ).
Qed.

Lemma traced_same : forall fuel pp, 0 < B2R (pp_spring pp : float32) -> forall l tip prev a tip',
  Props_FSpring.traced fuel pp tip a l tip' -> same_tip acosf prev tip -> Forall finite_motion (List.concat (map snd l)) -> same_tip acosf (last (List.concat (map snd l)) prev) tip'.
Proof.
  intros fuel pp K. induction l as [|[b out] l IH]; intros tip prev a tip' H SP F; cbn [Props_FSpring.traced] in *; [subst tip'; exact SP|].
  destruct H as (ta & tb & n & tip1 & tips & UA & SH & TR). cbn [map List.concat snd] in F |- *. apply Forall_app in F. destruct F as [F1 F2].
  destruct (along_law _ _ _ _ _ _ _ _ _ _ _ _ K UA SH SP F1) as [_ L2].
  rewrite last_app'. eapply IH; eassumption.
Qed.

End FEnd.

Lemma back_last : forall {X} (l : list X) x y d, back (x :: l) = Some y -> last l x = y /\ last (x :: l) d = y.
Proof.
  intros X l. unfold back. induction l as [|z l IH]; intros x y d H; [cbn in H |- *; split; congruence|].
  rewrite !last_cons'. destruct (IH z y d H) as [I1 I2]. rewrite last_cons' in I2. split; assumption.
Qed.

(** ** C24 *)
(** Loop mitigation off and no stylus data, numbers of ordinary size: an Up first
    draws the tip along to the pen-up point, then lets it approach that point; if
    that produces nothing at all it reports one state. [w] is the position of the
    last input (smoothed if smoothing is on). *)
Theorem C24_float_end_of_stroke : forall acosf (A := ieee acosf) fuel hist s (p : StrokeModelParams (A := ieee acosf)) i0 i rs out es prev,
  after_stroke fuel hist s es -> ps_params s = Some p -> back (map fst es) = Some i0 -> i_event i = EUp ->
  lp_enabled (pp_loop (p_position p)) = false -> sy_normal (p_stylus p) = false -> plain_down es ->
  back (List.concat (map snd es)) = Some prev ->
  answers fuel hist [CUpdate i rs] = Ret [RResults OkStatus (rs ++ out)] ->
  Forall finite_motion (List.concat (map snd es)) -> Forall finite_motion out ->
  moderate_point (i_pos i) -> Forall (fun r => moderate_point (r_pos r)) (prev :: out) -> moderate_stop (sp_stop (p_sampling p)) ->
  let pp := p_position p in let g := 1 / real64 (sp_rate (p_sampling p)) in let stop := real32 (sp_stop (p_sampling p)) in
  let max_iter := Z.to_nat (sp_max_iter (p_sampling p)) in
  exists w path tail h,
    (wp_enabled (p_wobble p) = false -> w = i_pos i0) /\
    (out = path ++ tail \/
     path = [] /\ tail = [] /\ exists f, out = [f] /\
       (same_motion f prev \/ exists h', float_step pp (i_pos i) (g / 2 ^ h') prev f /\ far (r_pos prev) (r_pos f) <= (1 + ppm) * stop)) /\
    float_drawn_along pp prev w (i_pos i) path /\
    float_approaches pp (i_pos i) stop g (last path prev) tail /\
    (List.length tail + h <= max_iter)%nat /\
    (tail <> [] /\ far (r_pos (last tail prev)) (i_pos i) <= (1 + ppm) * stop \/
     (List.length tail + h = max_iter)%nat \/
     exists c, float_step pp (i_pos i) (g / 2 ^ h) (last tail (last path prev)) c /\
       far (r_pos (last tail (last path prev))) (r_pos c) <= (1 + ppm) * stop).
Proof.
  intros acosf A fuel hist s p i0 i rs out es prev AS P BI EV LP SN PD BK AN FE FO MI MO MS pp g stop max_iter. subst A.
  destruct (chain_state fuel _ _ _ AS) as (m0 & rs0 & R0 & _ & _ & _ & CH).
  assert (AF : after fuel hist s) by (destruct AS as (ma & rsa & Ra & Pa & _); exists ma, rsa; auto).
  destruct (accepted_update _ _ _ _ _ _ _ AF AN) as (m & r0 & m' & o & R & (T1 & T2 & _) & G & C & K & U & _).
  rewrite R0 in R. apply ret_inj in R. injection R as -> ->.
  apply app_inv_head in K. subst o. rewrite P in T1. symmetry in T1. clear AN.
  destruct (upd_up fuel m i m' out U EV) as (q & lst & n & tip1 & tips1 & tip2 & tips2 & sm & lm & MP & VI & ML & _ & _ & UA & ME & SU & MST & _).
  rewrite T1 in MP. injection MP as <-. pose proof (g_valid _ G p T1) as V. clear U.
  destruct (C p T1 ltac:(left; congruence)) as (C1 & C2 & C3 & C4).
  destruct (CH p lst T1 ML) as (d & es' & ws & EE & LW & KC & KW & KD). clear CH C.
  destruct PD as (d0 & out0 & es0 & E0 & U1 & U2 & U3). rewrite EE in E0. injection E0 as <- _ _.
  destruct (KD LP SN U1 U2 U3) as (J1 & J2 & J3 & TR). clear KD. cbn [core_of co_tip co_last co_s] in TR, KC, J1, J2, J3.
  rewrite C2 in UA, ME. fold pp in UA, ME, TR.
  pose proof (stylus_update_flags _ _ _ _ _ _ _ SU) as (E1 & E2 & E3). rewrite J1 in E1. rewrite J2 in E2. rewrite J3 in E3. cbn [orb] in E1, E2, E3.
  assert (RAW : s_raw (sm_state sm) = []) by (apply (stylus_update_raw _ _ _ _ _ _ _ SU); [rewrite C3; exact SN|exact E1|exact E2|exact E3]).
  assert (SH : Forall2 (shows fuel) (match tips1 ++ tips2 with [] => [tip2] | l => l end) out) by (eapply shows_all; [exact RAW|rewrite C4; exact LP|exact MST]).
  clear SU MST RAW E1 E2 E3 J1 J2 J3.
  assert (K0 : 0 < B2R (pp_spring pp : float32)).
  { destruct (validate_params_parts p V) as (_ & VP & _). unfold validate_position in VP.
    apply and_then_ok in VP. destruct VP as [_ VP]. apply and_then_ok in VP. destruct VP as [V1 _]. apply gt0_f_F in V1. exact (proj2 V1). }
  assert (RT : 0 < B2R (sp_rate (p_sampling p) : float64)).
  { destruct (validate_params_parts p V) as (_ & _ & VP & _). unfold validate_sampling in VP.
    apply and_then_ok in VP. destruct VP as [V1 _]. apply gt0_d_F in V1. exact (proj2 V1). }
  destruct (stop_ok acosf p V) as [FS S0]. destruct (input_F acosf i VI) as (FI1 & FI2 & _). assert (FI : finite_vec acosf (i_pos i)) by (split; assumption).
  (* the state before the Up *)
  rewrite EE in BK, FE, BI. cbn [map snd fst List.concat app] in BK, FE, BI. destruct (back_last _ _ _ prev BK) as [PV _]. destruct (back_last _ _ _ i0 BI) as [IV _].
  pose proof (Forall_inv FE) as FD. apply Forall_inv_tail in FE.
  assert (SP : same_tip acosf prev (pm_state (m_pos m))).
  { rewrite <- PV. assert (MM : map snd (combine ws (map snd es')) = map snd es').
    { clear - LW. revert ws LW. induction es' as [|e es' IH]; intros [|w ws] LW; try discriminate LW; [reflexivity|]. cbn. f_equal. apply IH. cbn in LW. lia. }
    rewrite <- MM. eapply (traced_same acosf fuel pp K0); [exact TR| |rewrite MM; exact FE].
    destruct FD as ((P1 & P2) & (V1 & V2) & (A1 & A2) & T). cbn [down_result r_pos r_vel r_acc r_time] in *.
    repeat split; cbn [t_pos t_vel t_acc t_time r_pos r_vel r_acc r_time down_result]; assumption. }
  assert (WV : wp_enabled (p_wobble p) = false -> li_corrected lst = i_pos i0).
  { intros W. rewrite KC, (KW W), <- IV. clear. revert d. induction es' as [|x es' IH]; intros d; [reflexivity|]. cbn [map]. rewrite !last_cons'. apply IH. }
  clear TR BK BI FE FD KC KW LW EE PV IV. pose proof (Forall_inv MO) as MP. apply Forall_inv_tail in MO.
  (* the two parts *)
  assert (SPLIT : exists path tail, Forall2 (shows fuel) tips1 path /\ Forall2 (shows fuel) tips2 tail /\
     (out = path ++ tail \/ path = [] /\ tail = [] /\ exists f, out = [f] /\ shows fuel tip2 f)).
  { destruct (tips1 ++ tips2) as [|x l] eqn:E12.
    - apply app_eq_nil in E12. destruct E12 as [-> ->]. exists [], []. do 2 (split; [constructor|]). right. do 2 (split; [reflexivity|]).
      inversion SH as [|? f ? ? H1 H2]; subst. inversion H2; subst. exists f. auto.
    - rewrite <- E12 in SH. apply Forall2_app_inv_l in SH. destruct SH as (path & tail & H1 & H2 & H3). exists path, tail. auto. }
  destruct SPLIT as (path & tail & SH1 & SH2 & SO). clear SH.
  assert (FP : Forall finite_motion path /\ Forall finite_motion tail /\ Forall (fun r => moderate_point (r_pos r)) path /\ Forall (fun r => moderate_point (r_pos r)) tail).
  { destruct SO as [->|(-> & -> & _)]; [|repeat split; constructor]. apply Forall_app in FO, MO. tauto. }
  destruct FP as (FP & FT & MPP & MT).
  destruct (along_law acosf _ _ _ _ _ _ _ _ _ _ _ _ K0 UA SH1 SP FP) as [DA SL].
  assert (ML1 : moderate_point (r_pos (last path prev))).
  { clear - MP MPP. revert prev MP. induction path as [|x path IH]; intros prev MP; [exact MP|]. rewrite last_cons'. apply IH; [apply Forall_inv_tail in MPP; exact MPP|apply Forall_inv in MPP; exact MPP]. }
  destruct (end_struct _ _ _ _ _ _ _ _ ME) as (h & H1 & H2 & H3 & H4).
  set (pq := last path prev) in *.
  (* every tip with its result *)
  assert (PAIR : forall j y, nth_error (tip1 :: tips2) j = Some y -> exists r, nth_error (pq :: tail) j = Some r /\ same_tip acosf r y /\ moderate_point (r_pos r)).
  { intros [|j] y NY; cbn [nth_error] in NY |- *; [injection NY as <-; exists pq; auto|].
    clear - SH2 FT MT NY. revert j NY. induction SH2 as [|t r ts rs S1 S2 IH]; intros j NY; [destruct j; discriminate NY|].
    destruct j as [|j]; cbn [nth_error] in *.
    - injection NY as <-. exists r. split; [reflexivity|]. split; [eapply shows_same; [exact S1|exact (Forall_inv FT)]|exact (Forall_inv MT)].
    - apply IH; [exact (Forall_inv_tail FT)|exact (Forall_inv_tail MT)|exact NY]. }
  assert (LT : List.length tail = List.length tips2) by (symmetry; exact (Forall2_len _ _ _ SH2)).
  assert (LAST : same_tip acosf (last tail pq) (last tips2 tip1)).
  { clear - SL SH2 FT. revert SL. generalize pq tip1. induction SH2 as [|t r ts rs S1 S2 IH]; intros q y SL; [exact SL|]. rewrite !last_cons'.
    apply IH; [exact (Forall_inv_tail FT)|]. eapply shows_same; [exact S1|exact (Forall_inv FT)]. }
  assert (STEP : forall q y r hj, same_tip acosf q y -> same_tip acosf r (tip_update pp y (i_pos i) (dadd (t_time y) (halves (ddiv (dofZ 1) (sp_rate (p_sampling p))) hj))) ->
    float_step pp (i_pos i) (g / 2 ^ hj) q r).
  { intros q y r hj SQ SR. split; [eapply fixed_law; [exact SQ|exact SR|exact K0]|].
    destruct SQ as (_ & _ & _ & [_ TQ]). destruct SR as (_ & _ & _ & [FR TR]). cbn [tip_update t_time] in FR, TR.
    destruct (time_law acosf _ _ _ RT FR) as [_ TL]. unfold real64. rewrite <- TQ, <- TR. exact TL. }
  assert (SHORT : forall q y hj, same_tip acosf q y ->
    fltb (distance (t_pos y) (t_pos (tip_update pp y (i_pos i) (dadd (t_time y) (halves (ddiv (dofZ 1) (sp_rate (p_sampling p))) hj))))) (sp_stop (p_sampling p)) = true ->
    let c := tip_update pp y (i_pos i) (dadd (t_time y) (halves (ddiv (dofZ 1) (sp_rate (p_sampling p))) hj)) in
    same_tip acosf (of_tip acosf c) c /\ far (t_pos y) (t_pos c) <= (1 + ppm) * stop).
  { intros q y hj SQ D. cbv zeta. destruct (dist_true acosf _ _ _ D FS MS) as (_ & FC & GP). split; [eapply step_same; [exact SQ|exact FC|exact K0]|].
    apply far_upper; [exact S0|exact GP]. }
  exists (li_corrected lst), path, tail, h.
  split; [exact WV|]. split.
  { destruct SO as [SO|(-> & -> & f & SO & SF)]; [left; exact SO|right]. do 2 (split; [reflexivity|]). exists f. split; [exact SO|].
    assert (E2 : tips2 = []) by (inversion SH2; reflexivity). subst out. pose proof (shows_same acosf _ _ _ SF (Forall_inv FO)) as SF2. cbn [last] in pq. subst pq.
    destruct (H4 E2) as [H5|(h' & H5 & H6)].
    - left. subst tip2. destruct SF2 as ([[_ A1] [_ A2]] & [[_ A3] [_ A4]] & [[_ A5] [_ A6]] & [_ A7]). destruct SL as ([[_ B1] [_ B2]] & [[_ B3] [_ B4]] & [[_ B5] [_ B6]] & [_ B7]).
      unfold same_motion, same_numbers, real32, real64. repeat split; congruence.
    - right. exists h'. rewrite H5 in H6. destruct (SHORT _ _ _ SL H6) as [_ SF3]. rewrite <- H5 in SF3. split; [eapply STEP; [exact SL|rewrite <- H5; exact SF2]|].
      rewrite (far_same acosf _ _ _ _ (proj1 SL) (proj1 SF2)). exact SF3. }
  split; [exact DA|]. split.
  { intros j r NJ.
    assert (LJ : (j < List.length tips2)%nat) by (rewrite <- LT; apply nth_error_Some; congruence).
    destruct (nth_error tips2 j) as [x|] eqn:NX; [|apply nth_error_None in NX; lia].
    destruct (H2 j x NX) as (y & hj & Y1 & Y2 & Y3 & Y4).
    destruct (PAIR j y Y1) as (q & Q1 & Q2 & Q3). destruct (PAIR (S j) x NX) as (r' & R1 & R2 & R3). cbn [nth_error] in R1. rewrite NJ in R1. injection R1 as <-.
    exists q, hj. split; [exact Q1|]. split; [eapply STEP; [exact Q2|rewrite <- Y2; exact R2]|].
    pose proof (same_finite acosf _ _ (proj1 Q2)) as FQ. pose proof (same_finite acosf _ _ (proj1 R2)) as FR.
    pose proof (same_moderate acosf _ _ (proj1 Q2) Q3) as MQ. pose proof (same_moderate acosf _ _ (proj1 R2) R3) as MR.
    rewrite (far_same acosf _ _ _ _ (proj1 Q2) (proj1 R2)), (far_same acosf _ _ _ _ (proj1 Q2) (same_refl acosf _ FI)), (far_same acosf _ _ _ _ (proj1 R2) (same_refl acosf _ FI)).
    split.
    - apply far_lower; [exact S0|]. apply dist_false; assumption.
    - intros FAR. pose proof (nearest_closer acosf _ _ _ _ FQ FR FI MQ MR MI FS MS Y3 Y4 FAR) as NC.
      unfold far. apply sqrt_lt_1_alt. split; [|exact NC]. apply Rplus_le_le_0_compat; apply Rle_0_sqr. }
  split; [rewrite LT; exact H1|].
  destruct H3 as [[H3 H5]|[H3|H3]].
  - left. destruct (dist_true acosf _ _ _ H5 FS MS) as (_ & _ & GP). split; [intros ->; apply H3; inversion SH2; reflexivity|].
    assert (EL : last tail prev = last tail pq) by (destruct tail; [exfalso; apply H3; inversion SH2; reflexivity|rewrite !last_cons'; reflexivity]).
    rewrite EL, (far_same acosf _ _ _ _ (proj1 LAST) (same_refl acosf _ FI)). apply far_upper; [exact S0|exact GP].
  - right. left. rewrite LT. exact H3.
  - right. right. destruct (SHORT _ _ _ LAST H3) as [SC FC]. eexists. split; [eapply STEP; [exact LAST|exact SC]|].
    eapply Rle_trans; [apply Req_le; exact (far_same acosf _ _ _ _ (proj1 LAST) (proj1 SC))|exact FC].
Qed.
