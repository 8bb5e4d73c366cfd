(** * C52: the results stay near the inputs, however long the stroke (exact arithmetic). *)
From Coq Require Import ZArith Bool List Sorted Reals Lra Lia Psatz.
From Flocq Require Import Core.Raux.
From Verif Require Export Props_Rest.
Import ListNotations.
Open Scope R_scope.

(** ** Specification *)
(** The coordinate of a point along the direction ([a], [b]). *)
Definition coord (a b : R) (q : Vec2) : R := a * vx q + b * vy q.
(** The point lies in the strip of half-width [w] around [c]. *)
Definition within (a b c w : R) (q : Vec2) : Prop := Rabs (coord a b q - c) <= w.
(** The spring is neither too weak nor too strong for the drag and the steps are
    short enough: the library's own recommended parameters have 1.76 and 4.4 here. *)
Definition well_damped (p : StrokeModelParams) : Prop :=
  let k := pp_spring (p_position p) in let d := pp_drag (p_position p) in
  1 <= k * d * d <= 3 /\ 4 <= sp_rate (p_sampling p) * k * d.

(** ** One step of the tip, in normalised units *)
Definition g11 (s m : R) : R := (1 / 30) * m + (3 / 40) * s * m + (1 / 144) * s * m * m + (- 1 / 80) * s * s * m * m + (- 1 / 256) * s * s * s * m * m.
Definition g12 (s m : R) : R := (- 1 / 20) * m + (1 / 30) * m * m + (1 / 16) * s * m * m + (1 / 360) * s * m * m * m + (1 / 64) * s * s * m * m + (- 1 / 80) * s * s * m * m * m + (- 1 / 256) * s * s * s * m * m * m.
Definition g22 (s m : R) : R := (1 / 15) * m * m + (- 1 / 16) * s * m * m + (1 / 18) * s * m * m * m + (1 / 32) * s * s * m * m * m + (- 1 / 80) * s * s * m * m * m * m + (- 1 / 256) * s * s * s * m * m * m * m.
Ltac bernstein := repeat apply Rplus_le_le_0_compat; (apply Rmult_le_pos; [lra|apply Rmult_le_pos; apply Rmult_le_pos; apply pow_le; lra]).
Lemma g11_pos : forall s m, 0 <= s <= 1 -> 1 <= m <= 3 -> 0 < g11 s m.
Proof.
  intros s m S M. assert (H : g11 s m - 1 / 40 =
    1 / 480 * (s ^ 0 * (1 - s) ^ 3 * ((m - 1) ^ 0 * (3 - m) ^ 2)) +
    1 / 48 * (s ^ 0 * (1 - s) ^ 3 * ((m - 1) ^ 1 * (3 - m) ^ 1)) +
    3 / 160 * (s ^ 0 * (1 - s) ^ 3 * ((m - 1) ^ 2 * (3 - m) ^ 0)) +
    77 / 2880 * (s ^ 1 * (1 - s) ^ 2 * ((m - 1) ^ 0 * (3 - m) ^ 2)) +
    71 / 480 * (s ^ 1 * (1 - s) ^ 2 * ((m - 1) ^ 1 * (3 - m) ^ 1)) +
    41 / 320 * (s ^ 1 * (1 - s) ^ 2 * ((m - 1) ^ 2 * (3 - m) ^ 0)) +
    127 / 2880 * (s ^ 2 * (1 - s) ^ 1 * ((m - 1) ^ 0 * (3 - m) ^ 2)) +
    103 / 480 * (s ^ 2 * (1 - s) ^ 1 * ((m - 1) ^ 1 * (3 - m) ^ 1)) +
    11 / 64 * (s ^ 2 * (1 - s) ^ 1 * ((m - 1) ^ 2 * (3 - m) ^ 0)) +
    851 / 46080 * (s ^ 3 * (1 - s) ^ 0 * ((m - 1) ^ 0 * (3 - m) ^ 2)) +
    209 / 2560 * (s ^ 3 * (1 - s) ^ 0 * ((m - 1) ^ 1 * (3 - m) ^ 1)) +
    55 / 1024 * (s ^ 3 * (1 - s) ^ 0 * ((m - 1) ^ 2 * (3 - m) ^ 0))) by (unfold g11; field).
  assert (0 <= g11 s m - 1 / 40) by (rewrite H; bernstein). lra.
Qed.
Lemma gdet_pos : forall s m, 0 <= s <= 1 -> 1 <= m <= 3 -> 0 <= g11 s m * g22 s m - g12 s m * g12 s m.
Proof.
  intros s m S M. assert (H : g11 s m * g22 s m - g12 s m * g12 s m =
    7 / 230400 * (s ^ 0 * (1 - s) ^ 4 * ((m - 1) ^ 0 * (3 - m) ^ 6)) +
    47 / 115200 * (s ^ 0 * (1 - s) ^ 4 * ((m - 1) ^ 1 * (3 - m) ^ 5)) +
    473 / 230400 * (s ^ 0 * (1 - s) ^ 4 * ((m - 1) ^ 2 * (3 - m) ^ 4)) +
    281 / 57600 * (s ^ 0 * (1 - s) ^ 4 * ((m - 1) ^ 3 * (3 - m) ^ 3)) +
    29 / 5120 * (s ^ 0 * (1 - s) ^ 4 * ((m - 1) ^ 4 * (3 - m) ^ 2)) +
    39 / 12800 * (s ^ 0 * (1 - s) ^ 4 * ((m - 1) ^ 5 * (3 - m) ^ 1)) +
    3 / 5120 * (s ^ 0 * (1 - s) ^ 4 * ((m - 1) ^ 6 * (3 - m) ^ 0)) +
    41 / 172800 * (s ^ 1 * (1 - s) ^ 3 * ((m - 1) ^ 0 * (3 - m) ^ 6)) +
    341 / 115200 * (s ^ 1 * (1 - s) ^ 3 * ((m - 1) ^ 1 * (3 - m) ^ 5)) +
    4883 / 345600 * (s ^ 1 * (1 - s) ^ 3 * ((m - 1) ^ 2 * (3 - m) ^ 4)) +
    207 / 6400 * (s ^ 1 * (1 - s) ^ 3 * ((m - 1) ^ 3 * (3 - m) ^ 3)) +
    117 / 3200 * (s ^ 1 * (1 - s) ^ 3 * ((m - 1) ^ 4 * (3 - m) ^ 2)) +
    49 / 2560 * (s ^ 1 * (1 - s) ^ 3 * ((m - 1) ^ 5 * (3 - m) ^ 1)) +
    9 / 2560 * (s ^ 1 * (1 - s) ^ 3 * ((m - 1) ^ 6 * (3 - m) ^ 0)) +
    1501 / 3317760 * (s ^ 2 * (1 - s) ^ 2 * ((m - 1) ^ 0 * (3 - m) ^ 6)) +
    45323 / 8294400 * (s ^ 2 * (1 - s) ^ 2 * ((m - 1) ^ 1 * (3 - m) ^ 5)) +
    139517 / 5529600 * (s ^ 2 * (1 - s) ^ 2 * ((m - 1) ^ 2 * (3 - m) ^ 4)) +
    25609 / 460800 * (s ^ 2 * (1 - s) ^ 2 * ((m - 1) ^ 3 * (3 - m) ^ 3)) +
    36637 / 614400 * (s ^ 2 * (1 - s) ^ 2 * ((m - 1) ^ 4 * (3 - m) ^ 2)) +
    2947 / 102400 * (s ^ 2 * (1 - s) ^ 2 * ((m - 1) ^ 5 * (3 - m) ^ 1)) +
    921 / 204800 * (s ^ 2 * (1 - s) ^ 2 * ((m - 1) ^ 6 * (3 - m) ^ 0)) +
    2699 / 8294400 * (s ^ 3 * (1 - s) ^ 1 * ((m - 1) ^ 0 * (3 - m) ^ 6)) +
    63653 / 16588800 * (s ^ 3 * (1 - s) ^ 1 * ((m - 1) ^ 1 * (3 - m) ^ 5)) +
    95143 / 5529600 * (s ^ 3 * (1 - s) ^ 1 * ((m - 1) ^ 2 * (3 - m) ^ 4)) +
    3729 / 102400 * (s ^ 3 * (1 - s) ^ 1 * ((m - 1) ^ 3 * (3 - m) ^ 3)) +
    353 / 9600 * (s ^ 3 * (1 - s) ^ 1 * ((m - 1) ^ 4 * (3 - m) ^ 2)) +
    3289 / 204800 * (s ^ 3 * (1 - s) ^ 1 * ((m - 1) ^ 5 * (3 - m) ^ 1)) +
    81 / 40960 * (s ^ 3 * (1 - s) ^ 1 * ((m - 1) ^ 6 * (3 - m) ^ 0)) +
    1687 / 21233664 * (s ^ 4 * (1 - s) ^ 0 * ((m - 1) ^ 0 * (3 - m) ^ 6)) +
    243643 / 265420800 * (s ^ 4 * (1 - s) ^ 0 * ((m - 1) ^ 1 * (3 - m) ^ 5)) +
    708539 / 176947200 * (s ^ 4 * (1 - s) ^ 0 * ((m - 1) ^ 2 * (3 - m) ^ 4)) +
    24001 / 2949120 * (s ^ 4 * (1 - s) ^ 0 * ((m - 1) ^ 3 * (3 - m) ^ 3)) +
    151523 / 19660800 * (s ^ 4 * (1 - s) ^ 0 * ((m - 1) ^ 4 * (3 - m) ^ 2)) +
    9931 / 3276800 * (s ^ 4 * (1 - s) ^ 0 * ((m - 1) ^ 5 * (3 - m) ^ 1)) +
    1743 / 6553600 * (s ^ 4 * (1 - s) ^ 0 * ((m - 1) ^ 6 * (3 - m) ^ 0))) by (unfold g11, g12, g22; field).
  rewrite H. bernstein.
Qed.
(** The (doubled) energy of a tip at distance [e] with speed [y] (in units of the drag). *)
Definition form (m e y : R) : R := e * e + 4 / 5 * m * (e * y + y * y).
Lemma form_nn : forall m e y, 1 <= m <= 3 -> (1 - m / 5) * (e * e) <= form m e y.
Proof.
  intros m e y M. unfold form.
  assert (H : e * e + 4 / 5 * m * (e * y + y * y) = (1 - m / 5) * (e * e) + 4 / 5 * m * ((y + e / 2) * (y + e / 2))) by field.
  rewrite H. assert (0 <= 4 / 5 * m * ((y + e / 2) * (y + e / 2))) by (apply Rmult_le_pos; [lra|apply Rle_0_sqr]). lra.
Qed.
Lemma form_shrinks : forall s m e y, 0 <= s <= 1 -> 1 <= m <= 3 ->
  form m ((1 - s * s * m / 16) * e + s * m / 4 * (1 - s * m / 4) * y) (- (s / 4) * e + (1 - s * m / 4) * y) <= (1 - s * m / 12) * (1 - s * m / 12) * form m e y.
Proof.
  intros s m e y S M. pose proof (g11_pos s m S M) as G1. pose proof (gdet_pos s m S M) as G2.
  assert (H : (1 - s * m / 12) * (1 - s * m / 12) * form m e y -
    form m ((1 - s * s * m / 16) * e + s * m / 4 * (1 - s * m / 4) * y) (- (s / 4) * e + (1 - s * m / 4) * y) =
    s * (g11 s m * (e * e) + 2 * g12 s m * (e * y) + g22 s m * (y * y))) by (unfold form, g11, g12, g22; field).
  assert (Q : 0 <= g11 s m * (e * e) + 2 * g12 s m * (e * y) + g22 s m * (y * y)).
  { apply Rmult_le_reg_l with (g11 s m); [exact G1|]. rewrite Rmult_0_r.
    replace (g11 s m * (g11 s m * (e * e) + 2 * g12 s m * (e * y) + g22 s m * (y * y))) with
      ((g11 s m * e + g12 s m * y) * (g11 s m * e + g12 s m * y) + (g11 s m * g22 s m - g12 s m * g12 s m) * (y * y)) by ring.
    apply Rplus_le_le_0_compat; [apply Rle_0_sqr|]. apply Rmult_le_pos; [exact G2|apply Rle_0_sqr]. }
  assert (0 <= s * (g11 s m * (e * e) + 2 * g12 s m * (e * y) + g22 s m * (y * y))) by (apply Rmult_le_pos; [lra|exact Q]). lra.
Qed.
(** Pulled towards [u], which is at most [B] away. *)
Lemma form_step : forall s m e y u B, 0 <= s <= 1 -> 1 <= m <= 3 -> Rabs u <= B -> form m e y <= 49 / 4 * (1 - m / 5) * (B * B) ->
  let y' := y + (s / 4 * (u - e) - s * m / 4 * y) in form m (e + s * m / 4 * y') y' <= 49 / 4 * (1 - m / 5) * (B * B).
Proof.
  intros s m e y u B S M U F y'. set (T := 49 / 4 * (1 - m / 5) * (B * B)) in *.
  set (a1 := (1 - s * s * m / 16) * e + s * m / 4 * (1 - s * m / 4) * y). set (a2 := - (s / 4) * e + (1 - s * m / 4) * y).
  set (k := s * m / 12). set (n := 1 - k). set (b1 := 3 / m * u * (s * m / 4)). set (b2 := 3 / m * u).
  assert (K : 0 <= k <= 1 / 4) by (unfold k; split; [apply Rmult_le_pos; [apply Rmult_le_pos; lra|lra]|]; assert (s * m <= 1 * 3) by (apply Rmult_le_compat; lra); lra).
  assert (N : 3 / 4 <= n) by (unfold n; lra).
  assert (FA : form m a1 a2 <= n * n * T).
  { eapply Rle_trans; [apply form_shrinks; assumption|]. fold k. fold n. apply Rmult_le_compat_l; [apply Rle_0_sqr|exact F]. }
  assert (UU : u * u <= B * B).
  { rewrite <- (Rabs_pos_eq (u * u)) by apply Rle_0_sqr. rewrite Rabs_mult. apply Rmult_le_compat; try apply Rabs_pos; exact U. }
  assert (FB : form m b1 b2 <= T).
  { unfold b1, b2, form, T.
    replace (3 / m * u * (s * m / 4) * (3 / m * u * (s * m / 4)) + 4 / 5 * m * (3 / m * u * (s * m / 4) * (3 / m * u) + 3 / m * u * (3 / m * u))) with
      (9 * (s * s / 16 + s / 5 + 4 / 5 / m) * (u * u)) by (field; lra).
    apply Rmult_le_compat; [|apply Rle_0_sqr| |exact UU].
    - assert (0 < / m) by (apply Rinv_0_lt_compat; lra). assert (0 <= s * s) by apply Rle_0_sqr. lra.
    - assert (SS : s * s <= 1 * 1) by (apply Rmult_le_compat; lra). assert (I : 4 / 5 / m <= 4 / 3 * 4 / 5 - 4 / 15 * m).
      { apply Rmult_le_reg_r with m; [lra|]. replace (4 / 5 / m * m) with (4 / 5) by (field; lra).
        assert (0 <= (m - 1) * (3 - m)) by (apply Rmult_le_pos; lra). lra. }
      lra. }
  assert (E1 : e + s * m / 4 * y' = a1 + k * b1) by (unfold y', a1, b1, k; field; lra).
  assert (E2 : y' = a2 + k * b2) by (unfold y', a2, b2, k; field; lra).
  rewrite E1, E2. apply Rmult_le_reg_l with n; [lra|].
  assert (CX : n * form m (a1 + k * b1) (a2 + k * b2) = form m a1 a2 + n * k * form m b1 b2 - k * form m (a1 - n * b1) (a2 - n * b2)) by (unfold form, n; ring).
  assert (P : 0 <= form m (a1 - n * b1) (a2 - n * b2)).
  { eapply Rle_trans; [|apply form_nn; exact M]. apply Rmult_le_pos; [lra|apply Rle_0_sqr]. }
  rewrite CX. assert (0 <= k * form m (a1 - n * b1) (a2 - n * b2)) by (apply Rmult_le_pos; [lra|exact P]).
  assert (n * k * form m b1 b2 <= n * k * T) by (apply Rmult_le_compat_l; [apply Rmult_le_pos; lra|exact FB]).
  replace (n * T) with (n * n * T + n * k * T) by (unfold n; ring). lra.
Qed.


Lemma abs_le_inv : forall x y, Rabs x <= y -> - y <= x <= y.
Proof. intros x y H. unfold Rabs in H. destruct (Rcase_abs x); lra. Qed.

Section Strip.
Variables a b c w : R.
Notation inside := (within a b c w).

Lemma coord_interp : forall q q' r, coord a b (interp_v (A := real_arith) q q' r) = coord a b q + clamp01 (A := real_arith) r * (coord a b q' - coord a b q).
Proof. intros q q' r. unfold coord, interp_v, vadd, vscale, vsub. rsimp. ring. Qed.
Lemma within_interp : forall v q q' r, within a b c v q -> within a b c v q' -> within a b c v (interp_v (A := real_arith) q q' r).
Proof.
  intros v q q' r H H'. unfold within in *. rewrite coord_interp. pose proof (clamp01_range r) as T. set (t := clamp01 r) in *. clearbody t.
  set (x := coord a b q) in *. set (y := coord a b q') in *. clearbody x y.
  apply Rabs_le. apply abs_le_inv in H. apply abs_le_inv in H'. destruct T as [T1 T2].
  assert (0 <= t * (y - c + v)) by (apply Rmult_le_pos; lra). assert (0 <= (1 - t) * (x - c + v)) by (apply Rmult_le_pos; lra).
  assert (0 <= t * (v - (y - c))) by (apply Rmult_le_pos; lra). assert (0 <= (1 - t) * (v - (x - c))) by (apply Rmult_le_pos; lra). lra.
Qed.
Lemma within_vlerp : forall v q q' r, 0 <= r <= 1 -> within a b c v q -> within a b c v q' -> within a b c v (vlerp q q' r).
Proof. intros v q q' r T H H'. rewrite <- (interp_v_R q q' r T). apply within_interp; assumption. Qed.
Lemma within_nn : forall v q, within a b c v q -> 0 <= v.
Proof. intros v q H. eapply Rle_trans; [apply Rabs_pos|exact H]. Qed.
Lemma within_wider : forall v v' q, v <= v' -> within a b c v q -> within a b c v' q.
Proof. intros v v' q L H. eapply Rle_trans; [exact H|exact L]. Qed.

(** ** The smoother *)
Definition dur (s : WSample (A := real_arith)) : R := ws_dur s.
Definition moment (s : WSample (A := real_arith)) : R := ws_dur s * coord a b (ws_pos s).
Definition wsample_in (s : WSample (A := real_arith)) : Prop :=
  inside (ws_pos s) /\ 0 <= ws_dur s /\ coord a b (ws_wpos s) = ws_dur s * coord a b (ws_pos s).
Record wstate_in (st : WState (A := real_arith)) (t : R) : Prop := mkWI {
  wi_all : Forall wsample_in (w_samples st);
  wi_last : exists s, back (w_samples st) = Some s /\ ws_time s = t;
  wi_time : w_tsum st = sum (map dur (w_samples st));
  wi_pos : coord a b (w_wsum st) = sum (map moment (w_samples st))
}.
Lemma sum_in : forall l, Forall wsample_in l -> let t := sum (map dur l) in
  0 <= t /\ Rabs (sum (map moment l) - c * t) <= w * t.
Proof.
  intros l F. induction F as [|s l (F1 & F2 & _) F IH]; cbn [map].
  - cbn. split; [lra|]. rewrite !Rmult_0_r, Rminus_0_r, Rabs_R0. lra.
  - cbv zeta in *. destruct IH as [I1 I2]. change (sum (dur s :: map dur l)) with (dur s + sum (map dur l)).
    change (sum (moment s :: map moment l)) with (moment s + sum (map moment l)).
    set (X := sum (map moment l)) in *. set (T := sum (map dur l)) in *. clearbody X T.
    unfold moment, dur. unfold within in F1. generalize (coord a b (ws_pos s)) F1 (ws_dur s) F2. clear F1 F2. intros x F1 d F2. change (@D real_arith) with R in d. rsimp.
    split; [lra|]. apply Rabs_le. apply abs_le_inv in F1. apply abs_le_inv in I2.
    assert (0 <= d * (x - c + w)) by (apply Rmult_le_pos; lra). assert (0 <= d * (w - (x - c))) by (apply Rmult_le_pos; lra). lra.
Qed.
Lemma wobble_trim_in : forall limit t samples wsum dsum tsum st,
  Forall wsample_in samples -> (exists s, back samples = Some s /\ ws_time s = t) ->
  tsum = sum (map dur samples) -> coord a b wsum = sum (map moment samples) ->
  wobble_trim (A := real_arith) samples wsum dsum tsum limit = Ret st -> wstate_in st t.
Proof.
  intros limit t. induction samples as [|s rest IH]; intros wsum dsum tsum st F BK T W H; cbn [wobble_trim] in H; [discriminate H|].
  destruct (dltb (ws_time s) limit).
  - pose proof (Forall_inv F) as (F1 & F2 & F3). pose proof (Forall_inv_tail F) as F4.
    destruct rest as [|s' rest]; [discriminate H|]. rewrite back_cons in BK.
    eapply IH; [exact F4|exact BK| | |exact H].
    + rewrite T. rsimp. change (sum (map dur (s :: s' :: rest))) with (dur s + sum (map dur (s' :: rest))).
      unfold dur, moment. rsimp. match goal with |- @eq _ ?x ?y => change (@eq R x y) end. ring.
    + replace (coord a b (vsub wsum (ws_wpos s))) with (coord a b wsum - coord a b (ws_wpos s)) by (unfold coord, vsub; rsimp; ring).
      rewrite W, F3. change (sum (map moment (s :: s' :: rest))) with (moment s + sum (map moment (s' :: rest))).
      unfold dur, moment. rsimp. match goal with |- @eq _ ?x ?y => change (@eq R x y) end. ring.
  - injection H as <-. constructor; assumption.
Qed.
Lemma wobble_in : forall wm q t0 t wm' q', (wp_enabled (w_params wm) = true -> wstate_in (w_state wm) t0 /\ t0 <= t) ->
  inside q -> wobble_update (A := real_arith) wm q t = Ret (wm', q') ->
  (wp_enabled (w_params wm) = true -> wstate_in (w_state wm') t) /\ inside q'.
Proof.
  intros wm q t0 t wm' q' HW Q H. unfold wobble_update in H. destruct (wp_enabled (w_params wm)) eqn:ON; cbn [negb] in H.
  2:{ injection H as <- <-. split; [discriminate|exact Q]. }
  destruct (HW eq_refl) as [[W1 (s0 & B0 & T0) W2 W3] LT]. rewrite B0 in H. cbv zeta in H. bind_inv H. rename x into st.
  assert (WS : wstate_in st t).
  { eapply wobble_trim_in; [| | | |exact E].
    - apply Forall_app. split; [exact W1|]. constructor; [|constructor]. repeat split; cbn [ws_pos ws_dur ws_wpos]; [exact Q| |].
      + rsimp. rewrite T0. apply Rge_le, Rge_minus, Rle_ge. exact LT.
      + unfold coord, vscale. rsimp. ring.
    - eexists. rewrite back_snoc. split; reflexivity.
    - rewrite map_app, sum_app, W2. cbn [map]. unfold dur at 3. cbn [ws_dur]. rsimp. set (X := sum (map dur (w_samples (w_state wm)))). clearbody X. cbn. match goal with |- @eq _ ?x ?y => change (@eq R x y) end. ring.
    - rewrite map_app, sum_app, <- W3. cbn [map]. unfold moment. cbn [ws_dur ws_pos ws_wpos sum fold_right]. unfold coord, vadd, vscale. rsimp. match goal with |- @eq _ ?x ?y => change (@eq R x y) end. cbn. ring. }
  destruct (feqb (w_tsum st) f0) eqn:Z; injection H as <- <-; cbn [w_state]; (split; [intros _; exact WS|]); [exact Q|].
  rsimp. apply Reqb_false in Z. apply within_interp; [|exact Q]. destruct WS as [S1 _ S2 S3]. destruct (sum_in _ S1) as [P1 P2].
  rewrite <- S2, <- S3 in P2. rewrite <- S2 in P1. clear S1 S2 S3 E. revert P1 P2 Z. generalize (w_tsum st). intros T. change (@F real_arith) with R in T. intros P1 P2 Z.
  assert (P3 : 0 < T) by (destruct P1 as [P1|P1]; [exact P1|congruence]).
  unfold within. replace (coord a b (vdiv (w_wsum st) T) - c) with ((coord a b (w_wsum st) - c * T) / T) by (unfold coord, vdiv; rsimp; field; exact Z).
  unfold Rdiv. rewrite Rabs_mult, (Rabs_pos_eq (/ T)) by (left; apply Rinv_0_lt_compat; exact P3).
  apply Rmult_le_reg_r with T; [exact P3|]. rewrite Rmult_assoc, Rinv_l, Rmult_1_r by exact Z. exact P2.
Qed.

(** ** The tip *)
Definition calm_tip (p : PositionParams (A := real_arith)) (s : TipState) : Prop :=
  let m := pp_spring p * pp_drag p * pp_drag p in
  form m (coord a b (t_pos s) - c) (coord a b (t_vel s) / pp_drag p) <= 49 / 4 * (1 - m / 5) * (w * w).
Lemma calm_within : forall p s, 1 <= pp_spring p * pp_drag p * pp_drag p <= 3 -> 0 <= w -> calm_tip p s -> within a b c (7 / 2 * w) (t_pos s).
Proof.
  intros p s M W H. unfold calm_tip in H. revert M H. generalize (pp_spring p * pp_drag p * pp_drag p). intros m. change (@F real_arith) with R in m. intros M H.
  unfold within. set (e := coord a b (t_pos s) - c) in *. clearbody e. revert H. generalize (coord a b (t_vel s) / pp_drag p). intros y H.
  pose proof (form_nn m e y M) as F.
  assert (L : e * e <= 7 / 2 * w * (7 / 2 * w)).
  { apply Rmult_le_reg_l with (1 - m / 5); [lra|]. eapply Rle_trans; [exact F|]. eapply Rle_trans; [exact H|]. right. field. }
  apply Rabs_le. split.
  - apply Rnot_lt_le. intros N. assert (7 / 2 * w < - e) by lra.
    assert (7 / 2 * w * (7 / 2 * w) < - e * - e); [apply Rmult_le_0_lt_compat; lra|lra].
  - apply Rnot_lt_le. intros N.
    assert (7 / 2 * w * (7 / 2 * w) < e * e); [apply Rmult_le_0_lt_compat; lra|lra].
Qed.
Lemma coord_zero : coord a b (mkVec2 (A := real_arith) (0 : R) (0 : R)) = 0.
Proof. unfold coord. cbn [vx vy]. rring. Qed.
Lemma calm_start : forall p q t, 1 <= pp_spring p * pp_drag p * pp_drag p <= 3 -> inside q ->
  calm_tip p (mkTip q (mkVec2 (0 : R) (0 : R)) (mkVec2 (0 : R) (0 : R)) t).
Proof.
  intros p q t M H. unfold calm_tip. cbn [t_pos t_vel]. rewrite coord_zero. unfold Rdiv. rewrite Rmult_0_l.
  revert M H. generalize (pp_spring p * pp_drag p * pp_drag p). intros m. change (@F real_arith) with R in m. intros M H.
  unfold within in H. set (e := coord a b q - c) in *. clearbody e. unfold form.
  assert (U : e * e <= w * w).
  { rewrite <- (Rabs_pos_eq (e * e)) by apply Rle_0_sqr. rewrite Rabs_mult. apply Rmult_le_compat; try apply Rabs_pos; exact H. }
  assert (0 <= w * w) by apply Rle_0_sqr. assert (0 <= (3 - m) * (w * w)) by (apply Rmult_le_pos; lra). lra.
Qed.
Lemma calm_step : forall p s q t, 0 < pp_spring p -> 0 < pp_drag p -> 1 <= pp_spring p * pp_drag p * pp_drag p <= 3 ->
  0 <= t - t_time s <= pp_spring p * pp_drag p / 4 -> inside q -> calm_tip p s -> calm_tip p (tip_update (A := real_arith) p s q t).
Proof.
  intros p s q t K0 D0 M DT Q H. unfold calm_tip in *.
  set (k := pp_spring p : R) in *. set (d := pp_drag p : R) in *.
  set (dt := t - t_time s : R) in *. set (e := coord a b (t_pos s) - c) in *. set (y := coord a b (t_vel s) / d) in *. set (u := coord a b q - c).
  assert (KD : 0 < k * d) by (apply Rmult_lt_0_compat; assumption).
  assert (S : 0 <= 4 * dt / (k * d) <= 1).
  { split; [apply Rmult_le_pos; [lra|left; apply Rinv_0_lt_compat; exact KD]|]. apply Rmult_le_reg_r with (k * d); [exact KD|].
    unfold Rdiv. rewrite Rmult_assoc, Rinv_l by lra. lra. }
  pose proof (form_step (4 * dt / (k * d)) (k * d * d) e y u w S M Q H) as FS. cbv zeta in FS.
  assert (E1 : coord a b (t_vel (tip_update p s q t)) / d = y + (4 * dt / (k * d) / 4 * (u - e) - 4 * dt / (k * d) * (k * d * d) / 4 * y)).
  { unfold tip_update, coord, vadd, vsub, vdiv, vscale, u, e, y, coord. rsimp. fold dt. fold k. fold d. cbn [t_vel vx vy]. field. lra. }
  assert (E2 : coord a b (t_pos (tip_update p s q t)) - c = e + 4 * dt / (k * d) * (k * d * d) / 4 * (y + (4 * dt / (k * d) / 4 * (u - e) - 4 * dt / (k * d) * (k * d * d) / 4 * y))).
  { unfold tip_update, coord, vadd, vsub, vdiv, vscale, u, e, y, coord. rsimp. fold dt. fold k. fold d. cbn [t_pos vx vy]. field. lra. }
  rewrite E1, E2. exact FS.
Qed.
Lemma scan_calm : forall p g, 0 < pp_spring p -> 0 < pp_drag p -> 1 <= pp_spring p * pp_drag p * pp_drag p <= 3 -> g <= pp_spring p * pp_drag p / 4 ->
  forall l s, calm_tip p s -> Forall (fun x => inside (fst x)) l -> gaps_within g (t_time s) (map snd l) -> Forall (calm_tip p) (scan p s l).
Proof.
  intros p g K0 D0 M G. induction l as [|[q t] l IH]; intros s C F GP; cbn [scan]; [constructor|].
  cbn [map snd gaps_within] in GP. destruct GP as [G1 G2]. pose proof (Forall_inv F) as Q. cbn [fst] in Q.
  assert (C' : calm_tip p (tip_update p s q t)).
  { apply calm_step; try assumption. split; lra. }
  constructor; [exact C'|]. apply IH; [exact C'|exact (Forall_inv_tail F)|exact G2].
Qed.
Lemma last_all : forall {X} (P : X -> Prop) l d, P d -> Forall P l -> P (last l d).
Proof. intros X P l. induction l as [|x l IH]; intros d D F; [exact D|]. rewrite last_cons. apply IH; [exact (Forall_inv F)|exact (Forall_inv_tail F)]. Qed.
Lemma damped_step : forall p : StrokeModelParams, validate_params p = OkStatus -> well_damped p ->
  1 / sp_rate (p_sampling p) <= pp_spring (p_position p) * pp_drag (p_position p) / 4.
Proof.
  intros p V [_ H]. destruct (valid_R p V) as (_ & _ & V3 & _). apply Rmult_le_reg_l with (sp_rate (p_sampling p)); [exact V3|].
  replace (sp_rate (p_sampling p) * (1 / sp_rate (p_sampling p))) with 1 by (field; lra). lra.
Qed.
(** The steps of a Move or Up from [q0] at [t0] to [q1] at [t1]. *)
Lemma path_calm : forall p i0 i s0 s q0 q1 n tip tips, validate_params p = OkStatus -> well_damped p ->
  number_of_steps s0 i0 i (p_sampling p) (p_position p) = Ret (IOk n) -> dltb (i_time i) (i_time i0) = false ->
  calm_tip (p_position p) s -> t_time s = i_time i0 -> inside q0 -> inside q1 ->
  update_along_path (A := real_arith) (p_position p) s q0 (i_time i0) q1 (i_time i) n = Ret (tip, tips) ->
  calm_tip (p_position p) tip /\ Forall (calm_tip (p_position p)) tips /\ t_time tip = i_time i.
Proof.
  intros p i0 i s0 s q0 q1 n tip tips V WD NS DL C T Q0 Q1 UA. destruct (valid_R p V) as (V1 & V2 & V3 & V4). pose proof (damped_step p V WD) as G. destruct WD as [M _].
  cbv zeta in M. rsimp. apply Rltb_false in DL. destruct (steps_R _ _ _ _ _ _ NS) as (S1 & S2 & _).
  assert (N0 : (0 <= n)%Z).
  { assert (0 <= Zceil ((i_time i - i_time i0) * sp_rate (p_sampling p)))%Z; [|unfold INT_MAX in *; lia].
    apply le_IZR. pose proof (Zceil_ub ((i_time i - i_time i0) * sp_rate (p_sampling p))). nra. }
  destruct (path_R _ _ _ _ _ _ _ _ _ N0 UA) as (S3 & -> & S5).
  assert (NB : (i_time i - i_time i0) * sp_rate (p_sampling p) <= IZR n) by (eapply Rle_trans; [apply Zceil_ub|]; apply IZR_le; lia).
  assert (CT : Forall (calm_tip (p_position p)) tips).
  { rewrite S5. eapply scan_calm; [exact V1|exact V2|exact M|exact G|exact C| |].
    - apply Forall_forall. intros x I1. apply in_map_iff in I1. destruct I1 as (j & <- & I1). apply in_seq in I1. unfold waypoint. cbn [fst].
      assert (0 < IZR n) by (apply IZR_lt; lia). apply within_vlerp; [|exact Q0|exact Q1].
      split; [apply Rmult_le_pos; [apply pos_INR|left; apply Rinv_0_lt_compat; assumption]|].
      apply Rmult_le_reg_r with (IZR n); [assumption|]. unfold Rdiv. rewrite Rmult_assoc, Rinv_l, Rmult_1_r, Rmult_1_l by lra.
      rewrite INR_IZR_INZ. apply IZR_le. lia.
    - rewrite T. replace (i_time i0) with (i_time i0 + (i_time i - i_time i0) * (INR 0 / IZR n)) at 1 by (cbn; unfold Rdiv; ring).
      apply waypoint_gaps; [lia|exact DL|]. apply gap_bound; assumption. }
  split; [apply last_all; assumption|]. split; [exact CT|].
  rewrite <- (last_map t_time), S5, scan_time. apply waypoint_last; [lia|]. intros ->. rewrite T. split; [|reflexivity]. nra.
Qed.
Lemma end_calm : forall p q stop, 0 < pp_spring p -> 0 < pp_drag p -> 1 <= pp_spring p * pp_drag p * pp_drag p <= 3 -> inside q ->
  forall k d s sf out, calm_tip p s -> 0 < d -> d <= pp_spring p * pp_drag p / 4 ->
  model_end_of_stroke (A := real_arith) p s q d k stop = (sf, out) -> calm_tip p sf /\ Forall (calm_tip p) out.
Proof.
  intros p q stop K0 D0 M Q. induction k as [|k IH]; intros d s sf out C D1 D2 H; cbn [model_end_of_stroke] in H.
  - injection H as <- <-. auto.
  - assert (C' : calm_tip p (tip_update p s q (dadd (t_time s) d))).
    { apply calm_step; try assumption. rsimp. lra. }
    set (cd := tip_update _ _ _ _) in *. clearbody cd.
    destruct (fltb _ stop); [injection H as <- <-; auto|].
    destruct (fltb _ f1); [eapply IH; [exact C| | |exact H]; rsimp; lra|].
    destruct (fltb _ stop); [injection H as <- <-; auto|].
    destruct (model_end_of_stroke _ _ _ _ _ _) as [sf' out'] eqn:E. injection H as <- <-.
    apply IH in E; [|exact C'|exact D1|exact D2]. destruct E. auto.
Qed.

(** ** The stylus history and the results *)
Notation result_in v := (fun r : Result (A := real_arith) => within a b c v (r_pos r)).
Lemma stylus_in : forall q sm t pr ti o sm', Forall (result_in w) (s_raw (sm_state sm)) -> inside q ->
  stylus_update (A := real_arith) sm q t pr ti o = Ret sm' -> Forall (result_in w) (s_raw (sm_state sm')).
Proof.
  intros q sm t pr ti o sm' F Q H. unfold stylus_update in H.
  destruct (negb _ && _ && _ && _); [injection H as <-; constructor|].
  match type of H with (let '(vel, acc) := ?e in _) = _ => destruct e as [vel acc] end.
  bind_inv H. injection H as <-. cbn [sm_state s_raw]. rewrite Forall_forall in *.
  intros r I1. apply (stylus_trim_in _ _ _ _ E) in I1. apply in_app_or in I1. destruct I1 as [I1|[<-|[]]]; [auto|exact Q].
Qed.
Lemma interp_in : forall fuel v r1 r2 x r, result_in v r1 -> result_in v r2 -> interp_result (A := real_arith) fuel r1 r2 x = Ret r -> result_in v r.
Proof.
  intros fuel v r1 r2 x r H1 H2 H. apply interp_result_inv in H. destruct H as (H & _). cbn beta in *. rewrite H. apply within_interp; assumption.
Qed.
Lemma query_in : forall fuel sm tip n r, Forall (result_in w) (s_raw (sm_state sm)) -> s_raw (sm_state sm) <> [] ->
  stylus_query (A := real_arith) fuel sm tip n = Ret r -> result_in w r.
Proof.
  intros fuel sm tip n r F NE H. rewrite Forall_forall in F.
  destruct (query_eq fuel sm tip n) as [[E _]|(_ & o & E & O)]; [contradiction|].
  rewrite E in H. destruct o as [x| |] eqn:EO; cbn [obind] in H; try discriminate H. apply ret_inj in H. subst r. change (result_in w x).
  destruct O as [(p & QP & E0)|(_ & r1 & R1 & E0)]; symmetry in E0.
  - apply query_projection_in in QP. destruct QP as [Q1 Q2]. eapply interp_in; [apply (F _ Q1)|apply (F _ Q2)|exact E0].
  - apply ret_inj in E0. subst x. apply (F _ R1).
Qed.
Lemma model_stylus_loop_in : forall fuel sm, 0 <= w -> Forall (result_in w) (s_raw (sm_state sm)) ->
  forall tips lm v pt lm' out, Forall (fun t => within a b c (7 / 2 * w) (t_pos t)) tips -> (s_raw (sm_state sm) <> [] \/ lp_enabled (l_params lm) = false /\ v = 1) ->
  model_stylus_loop (A := real_arith) fuel tips sm lm v pt = Ret (lm', out) -> Forall (result_in (7 / 2 * w)) out.
Proof.
  intros fuel sm W F. induction tips as [|tip rest IH]; intros lm v pt lm' out T C H; cbn [model_stylus_loop] in H.
  - injection H as _ <-. constructor.
  - pose proof (Forall_inv T) as T1. pose proof (Forall_inv_tail T) as T4. cbn beta in T1. bind_inv H. bind_inv H. rename x into r0, x0 into r.
    destruct (loop_update lm (r_vel r) (t_time tip)) as [l1 v1] eqn:LU. bind_inv H. destruct x as [l2 o2]. injection H as _ <-.
    constructor.
    + destruct C as [C|[_ ->]].
      * eapply interp_in; [| |exact E0]; cbn beta; [|exact T1].
        eapply within_wider; [|eapply query_in; [exact F|exact C|exact E]]. lra.
      * apply interp_result_inv in E0. destruct E0 as (H1 & _). rewrite H1, interp_v_1. exact T1.
    + eapply IH; [exact T4| |exact E1]. destruct C as [C|[C _]]; [left; exact C|right].
      destruct (loop_update_off _ _ _ _ _ C LU) as [-> ->]. split; [exact C|reflexivity].
Qed.
Lemma model_stylus_in : forall fuel p sm tips lm pt lm' out, 0 <= w -> 1 <= pp_spring p * pp_drag p * pp_drag p <= 3 ->
  Forall (result_in w) (s_raw (sm_state sm)) -> Forall (calm_tip p) tips -> recall sm lm ->
  model_stylus (A := real_arith) fuel tips sm lm pt = Ret (lm', out) -> Forall (result_in (7 / 2 * w)) out.
Proof.
  intros fuel p sm tips lm pt lm' out W M F T C H. unfold model_stylus in H. eapply model_stylus_loop_in; [exact W|exact F| | |exact H].
  - revert T. apply Forall_impl. intros t. apply calm_within; assumption.
  - destruct C as [C|C]; [left; exact C|right]. split; [exact C|]. unfold loop_get. rewrite loop_value_off by exact C. reflexivity.
Qed.

(** ** The invariant *)
Definition pred_in (o : option (Predictor (A := real_arith))) : Prop :=
  match o with Some (PStrokeEnd _ _ (Some q)) => inside q | _ => True end.
Lemma pred_reset_in : forall o, pred_in (option_map pred_reset o).
Proof. intros [[pp sp l|k]|]; exact I. Qed.
Lemma upd_pred_in : forall o q t o', inside q -> upd_pred (A := real_arith) o q t = Ret o' -> pred_in o'.
Proof.
  intros [[pp sp l|k]|] q t o' Q H; cbn [upd_pred pred_update obind] in H.
  - injection H as <-. exact Q.
  - bind_inv H. injection H as <-. bind_inv E. injection E as <-. exact I.
  - injection H as <-. exact I.
Qed.

Record contained (p : StrokeModelParams (A := real_arith)) (es : list entry) (seen : list Input) (k : core) : Prop := mkCon {
  cn_w : wp_enabled (p_wobble p) = true -> exists i, back seen = Some i /\ wstate_in (co_w k) (i_time i);
  cn_tip : calm_tip (p_position p) (co_tip k);
  cn_time : t_time (co_tip k) = i_time (li_input (co_last k));
  cn_raw : Forall (result_in w) (s_raw (co_s k));
  cn_some : sy_normal (p_stylus p) = true -> s_raw (co_s k) <> [];
  cn_pred : pred_in (co_pred k);
  cn_last : inside (li_corrected (co_last k));
  cn_es : Forall (fun e => Forall (result_in (7 / 2 * w)) (snd e)) es
}.
Notation input_in := (fun i : Input (A := real_arith) => inside (i_pos i)).
Lemma input_nn : forall i : Input (A := real_arith), inside (i_pos i) -> 0 <= w.
Proof. intros i H. eapply Rle_trans; [apply Rabs_pos|exact H]. Qed.
Lemma sorted_init : forall p seen (i : Input (A := real_arith)), sorted_if_smoothing (p_wobble p) (seen ++ [i]) -> sorted_if_smoothing (p_wobble p) seen.
Proof.
  intros p seen i H ON. specialize (H ON). rewrite map_app in H. clear -H. induction (map i_time seen) as [|x l IH]; [constructor|].
  cbn [app] in H. apply Sorted_inv in H. destruct H as [H1 H2]. constructor; [apply IH; exact H1|]. destruct l; [constructor|]. inversion H2; subst. constructor. assumption.
Qed.
Lemma move_in : forall p m (i : Input (A := real_arith)) wm q seen, m_params m = Some p -> comp_params p m -> sorted_if_smoothing (p_wobble p) (seen ++ [i]) ->
  (wp_enabled (p_wobble p) = true -> exists i0, back seen = Some i0 /\ wstate_in (w_state (m_wobble m)) (i_time i0)) -> inside (i_pos i) ->
  wobble_update (A := real_arith) (m_wobble m) (i_pos i) (i_time i) = Ret (wm, q) ->
  (wp_enabled (p_wobble p) = true -> wstate_in (w_state wm) (i_time i)) /\ inside q.
Proof.
  intros p m i wm q seen MP (C1 & _) SO W Q H. rewrite <- C1 in *.
  assert (HW : exists t0, wp_enabled (w_params (m_wobble m)) = true -> wstate_in (w_state (m_wobble m)) t0 /\ t0 <= i_time i).
  { destruct (wp_enabled (w_params (m_wobble m))) eqn:ON; [|exists 0; discriminate].
    destruct (W eq_refl) as (i0 & B0 & WI). exists (i_time i0). intros _. split; [exact WI|].
    eapply back_sorted; [|exact B0]. apply SO. exact ON. }
  destruct HW as (t0 & HW). eapply wobble_in; eassumption.
Qed.

Lemma contained_state : forall fuel hist s es seen, after_seen (A := real_arith) fuel hist s es seen ->
  exists m rs, run fuel modeler0 hist = Ret (m, rs) /\ tracks s m /\ good m /\ cons m /\
    (forall p last, m_params m = Some p -> m_last m = Some last -> well_damped p -> sorted_if_smoothing (p_wobble p) seen -> Forall input_in seen ->
       contained p es seen (core_of p m last)).
Proof.
  intros fuel hist s es seen AS.
  refine (after_seen_state fuel (fun _ => True) (fun p es seen k => well_damped p -> sorted_if_smoothing (p_wobble p) seen -> Forall input_in seen -> contained p es seen k) _ _ _ hist s es seen AS (call_in_true _)).
  - intros p m i m' out _ MP V G U EV WD SO F. pose proof (Forall_inv F) as Q. cbn beta in Q. pose proof (input_nn i Q) as W0.
    destruct (upd_down fuel m i m' out U EV) as (p' & sm & pred & MQ & _ & _ & SU & UP & -> & ->). assert (p' = p) by congruence. subst p'. clear MQ.
    constructor; cbn [core_of co_w co_tip co_s co_pred co_last m_wobble m_pos m_stylus m_predictor li_corrected li_input wobble_reset w_state pos_reset pm_state].
    + intros _. exists i. split; [reflexivity|]. constructor; cbn [w_samples w_wsum w_tsum].
      * constructor; [|constructor]. repeat split; cbn [ws_pos ws_dur ws_wpos]; [exact Q|rsimp; apply Rle_refl|]. unfold coord, vzero. rsimp. ring.
      * eexists. split; reflexivity.
      * cbn. rsimp. ring.
      * cbn [map sum fold_right]. unfold moment, sum. cbn [ws_dur ws_pos fold_right]. unfold coord, vzero. rsimp. rring.
    + apply calm_start; [apply WD|exact Q].
    + reflexivity.
    + eapply stylus_in; [|exact Q|exact SU]. constructor.
    + intros N. eapply stylus_update_nonempty; [| |exact SU]; [exact (stylus_valid m p G MP)|exact N].
    + destruct (prediction_on p); [|exact I]. eapply upd_pred_in; [exact Q|exact UP].
    + exact Q.
    + constructor; [|constructor]. constructor; [|constructor]. unfold down_result. cbn [r_pos]. eapply within_wider; [|exact Q]. lra.
  - intros p m i m' out es0 seen0 lst last' _ MP V G CP ML J U EV ML' WD SO F.
    apply Forall_app in F. destruct F as [F1 F2]. specialize (J WD (sorted_init _ _ _ SO) F1). pose proof (Forall_inv F2) as Q. cbn beta in Q. destruct J as [J1 J2 J3 J4 J5 J6 J7 J8]. pose proof (input_nn i Q) as W0.
    destruct (upd_move fuel m i m' out U EV) as (p' & last0 & wm & q & sm & n & tip & tips & pred & lm & MQ & _ & ML0 & DL & WU & SU & NS & UA & UP & MS & ->).
    assert (p' = p) by congruence. subst p'. clear MQ. assert (last0 = lst) by congruence. subst last0. cbn in ML'. apply some_inj in ML'. subst last'.
    pose proof (recall_live _ _ _ _ _ _ _ _ G MP CP SU) as RC.
    cbn [core_of co_w co_tip co_s co_pred co_last] in *. destruct (move_in _ _ _ _ _ _ MP CP SO J1 Q WU) as [W1 W2].
    pose proof CP as (_ & C2 & C3 & _). rewrite C2 in UA.
    destruct (path_calm p _ _ _ _ _ _ _ _ _ V WD NS DL J2 J3 J7 W2 UA) as (T1 & T2 & T3). pose proof (stylus_in _ _ _ _ _ _ _ J4 W2 SU) as SR.
    constructor; cbn [core_of co_w co_tip co_s co_pred co_last m_wobble m_pos m_stylus m_predictor li_corrected li_input pos_with_state pm_state]; auto.
    + intros ON. exists i. split; [apply back_snoc|auto].
    + intros N. eapply stylus_update_nonempty; [| |exact SU]; rewrite C3; [exact (stylus_valid m p G MP)|exact N].
    + destruct (prediction_on p); [|exact I]. eapply upd_pred_in; [exact W2|exact UP].
    + apply Forall_app. split; [exact J8|]. constructor; [|constructor]. cbn [snd]. eapply model_stylus_in; [exact W0|apply WD|exact SR|exact T2|exact RC|exact MS].
  - intros p m i m' out es0 seen0 lst e _ MP V G CP ML J U NE WD SO F. inversion U; subst; try congruence.
    + rewrite H0 in F, SO. rewrite H0. auto.
    + match goal with HN : number_of_steps _ _ _ _ _ = _ |- _ => rewrite (number_of_steps_traced _ _ _ _ _ _ i H1 HN) in *; clear HN end.
      apply Forall_app in F. destruct F as [F1 F2]. destruct (J WD (sorted_init _ _ _ SO) F1) as [J1 J2 J3 J4 J5 J6 J7 J8]. pose proof (Forall_inv F2) as Q. cbn beta in Q.
      match goal with HW : wobble_update _ _ _ = _ |- _ => cbn [core_of co_w] in J1; destruct (move_in _ _ _ _ _ _ MP CP SO J1 Q HW) as [W1 W2] end.
      match goal with HS : stylus_update _ _ _ _ _ _ = _ |- _ => rename HS into SU end.
      constructor; cbn [core_of co_w co_tip co_s co_pred co_last m_wobble m_pos m_stylus m_predictor] in *; auto.
      * intros ON. exists i. split; [apply back_snoc|auto].
      * eapply stylus_in; [exact J4|exact W2|exact SU].
      * intros N. destruct CP as (_ & _ & C3 & _). eapply stylus_update_nonempty; [| |exact SU]; rewrite C3; [exact (stylus_valid m p G MP)|exact N].
Qed.

End Strip.

(** ** Theorems *)
(** If all inputs of the stroke lie in a strip of half-width [w], so do all results,
    with half-width 3.5 [w], however many inputs there are: the results so far, *)
Theorem C52_results_in_strip : forall (A := real_arith) fuel hist s p es seen a b c w,
  after_seen fuel hist s es seen -> ps_params s = Some p -> in_stroke s = true ->
  well_damped p -> sorted_if_smoothing (p_wobble p) seen -> Forall (fun i => within a b c w (i_pos i)) seen ->
  Forall (fun e => Forall (fun r => within a b c (7 / 2 * w) (r_pos r)) (snd e)) es.
Proof.
  intros A fuel hist s p es seen a b c w AS P IS WD SO F. subst A.
  destruct (contained_state a b c w fuel hist s es seen AS) as (m & rs & R & (T1 & T2 & _) & G & C & J).
  unfold in_stroke in IS. rewrite T2 in IS. destruct (m_last m) as [last|] eqn:ML; [|discriminate IS].
  rewrite P in T1. exact (cn_es _ _ _ _ _ _ _ _ (J p last (eq_sym T1) eq_refl WD SO F)).
Qed.

(** those of the next Update, *)
Theorem C52_update_in_strip : forall (A := real_arith) fuel hist s p es seen a b c w i rs out,
  after_seen fuel hist s es seen -> ps_params s = Some p -> well_damped p ->
  (i_event i <> EDown -> sorted_if_smoothing (p_wobble p) (seen ++ [i]) /\ Forall (fun i => within a b c w (i_pos i)) seen) ->
  within a b c w (i_pos i) ->
  answers fuel hist [CUpdate i rs] = Ret [RResults OkStatus (rs ++ out)] -> Forall (fun r => within a b c (7 / 2 * w) (r_pos r)) out.
Proof.
  intros A fuel hist s p es seen a b c w i rs out AS P WD H Q AN. subst A. pose proof (within_nn _ _ _ _ _ Q) as W0.
  assert (AF : after fuel hist s) by (destruct AS as (ma & rsa & Ra & Pa & _); exists ma, rsa; auto).
  destruct (contained_state a b c w fuel hist s es seen AS) as (m0 & rs0 & R0 & (T1 & T2 & _) & G & C & J).
  destruct (accepted_update _ _ _ _ _ _ _ AF AN) as (m & r0 & m' & out' & R & _ & _ & _ & EQ & U & _).
  rewrite R0 in R. injection R as <- <-. apply app_inv_head in EQ. subst out'. rewrite P in T1. symmetry in T1. pose proof (g_valid _ G p T1) as V.
  destruct (i_event i) eqn:EV.
  - destruct (upd_down fuel m0 i m' out U EV) as (p' & sm & pred & MP & _ & _ & _ & _ & -> & _).
    constructor; [|constructor]. unfold down_result. cbn [r_pos]. eapply within_wider; [|exact Q]. lra.
  - destruct (H ltac:(discriminate)) as [SO F]. clear H.
    destruct (upd_move fuel m0 i m' out U EV) as (p' & lst & wm & q & sm & n & tip & tips & pred & lm & MP & _ & ML & DL & WU & SU & NS & UA & UP & MS & _).
    assert (p' = p) by congruence. subst p'. pose proof (C p MP ltac:(left; congruence)) as CP.
    destruct (J p lst MP ML WD (sorted_init _ _ _ SO) F) as [J1 J2 J3 J4 J5 J6 J7 J8].
    pose proof (recall_live _ _ _ _ _ _ _ _ G MP CP SU) as RC.
    cbn [core_of co_w co_tip co_s co_pred co_last] in *. destruct (move_in _ _ _ _ _ _ _ _ _ _ MP CP SO J1 Q WU) as [W1 W2].
    pose proof CP as (_ & C2 & _). rewrite C2 in UA.
    destruct (path_calm _ _ _ _ p _ _ _ _ _ _ _ _ _ V WD NS DL J2 J3 J7 W2 UA) as (K1 & K2 & K3). pose proof (stylus_in _ _ _ _ _ _ _ _ _ _ _ J4 W2 SU) as SR.
    eapply model_stylus_in; [exact W0|apply WD|exact SR|exact K2|exact RC|exact MS].
  - destruct (H ltac:(discriminate)) as [SO F]. clear H.
    destruct (upd_up fuel m0 i m' out U EV) as (p' & lst & n & tip1 & tips1 & tip2 & tips2 & sm & lm & MP & _ & ML & DL & NS & UA & ME & SU & MS & _).
    assert (p' = p) by congruence. subst p'. pose proof (C p MP ltac:(left; congruence)) as CP.
    destruct (J p lst MP ML WD (sorted_init _ _ _ SO) F) as [J1 J2 J3 J4 J5 J6 J7 J8].
    pose proof (recall_live _ _ _ _ _ _ _ _ G MP CP SU) as RC.
    cbn [core_of co_w co_tip co_s co_pred co_last] in *. pose proof CP as (_ & C2 & _). rewrite C2 in UA, ME.
    destruct (path_calm _ _ _ _ p _ _ _ _ _ _ _ _ _ V WD NS DL J2 J3 J7 Q UA) as (K1 & K2 & _). pose proof (stylus_in _ _ _ _ _ _ _ _ _ _ _ J4 Q SU) as SR.
    destruct (valid_R p V) as (V1 & V2 & V3 & _).
    assert (D1 : 0 < 1 / sp_rate (p_sampling p)) by (apply Rdiv_lt_0_compat; [lra|exact V3]).
    destruct (end_calm _ _ _ _ _ _ _ V1 V2 (proj1 WD) Q _ _ _ _ _ K1 D1 (damped_step p V WD) ME) as [K3 K4].
    eapply model_stylus_in; [exact W0|apply WD|exact SR| |exact RC|exact MS].
    destruct (tips1 ++ tips2) as [|x l] eqn:E; [constructor; [exact K3|constructor]|]. rewrite <- E. apply Forall_app. split; assumption.
  - destruct (upd_other fuel m0 i m' out z U EV).
Qed.

(** and those of a prediction by the stroke-end predictor. *)
Theorem C52_prediction_in_strip : forall (A := real_arith) fuel hist s p es seen a b c w rs out,
  after_seen fuel hist s es seen -> ps_params s = Some p -> p_prediction p = PredStrokeEnd -> seen <> [] ->
  well_damped p -> sorted_if_smoothing (p_wobble p) seen -> Forall (fun i => within a b c w (i_pos i)) seen ->
  answers fuel hist [CPredict rs] = Ret [RResults OkStatus out] -> Forall (fun r => within a b c (7 / 2 * w) (r_pos r)) out.
Proof.
  intros A fuel hist s p es seen a b c w rs out AS P PS NE WD SO F AN. subst A.
  assert (W0 : 0 <= w) by (destruct seen as [|i seen]; [congruence|exact (within_nn _ _ _ _ _ (Forall_inv F))]).
  assert (AF : after fuel hist s) by (destruct AS as (ma & rsa & Ra & Pa & _); exists ma, rsa; auto).
  destruct (contained_state a b c w fuel hist s es seen AS) as (m & rs0 & R0 & (T1 & T2 & _) & G & C & J).
  destruct (remembered_state _ _ _ _ _ AS) as (m1 & rs1 & R1 & _ & _ & _ & RM). rewrite R0 in R1. injection R1 as <- <-.
  destruct (accepted_predict _ _ _ _ _ _ AF AN) as (m1 & r0 & m' & R & _ & _ & _ & U). rewrite R0 in R. injection R as <- <-.
  destruct (prd_ok fuel m m' out U) as (p' & pr & last0 & tips & lm & MQ & MPR & ML & PC & MS & _).
  assert (p' = p) by congruence. subst p'. pose proof (J p last0 MQ ML WD SO F) as JJ. pose proof (g_valid _ G p MQ) as V.
  assert (RC : recall (m_stylus m) (m_loop m)).
  { destruct (C p MQ ltac:(left; congruence)) as (_ & _ & _ & C4). unfold recall. rewrite C4.
    destruct (lp_enabled (pp_loop (p_position p))) eqn:E; [left|right; reflexivity].
    apply (cn_some _ _ _ _ _ _ _ _ JJ). apply mitigation_normal; [exact V|exact E]. }
  destruct (RM p last0 MQ ML) as (cs & ws & [H1 H2 H3 H4 H5 H6]).
  assert (ON : prediction_on p = true) by (unfold prediction_on; rewrite PS; reflexivity). specialize (H6 ON).
  destruct JJ as [J1 J2 J3 J4 J5 J6 J7 J8]. cbn [core_of co_w co_s co_last co_pred co_tip] in *. rewrite ON, MPR in *.
  destruct (predicting_end _ _ _ PS H6) as (o & EO). apply some_inj in EO. subst pr.
  eapply model_stylus_in; [exact W0|apply WD|exact J4| |exact RC|exact MS].
  cbn [pred_construct] in PC. destruct o as [pos|]; apply ret_inj in PC; subst tips; [|constructor].
  destruct (model_end_of_stroke _ _ _ _ _ _) as [t ts] eqn:ME. cbn [snd]. cbn [pred_in] in J6.
  destruct (valid_R p V) as (V1 & V2 & V3 & _).
  assert (D1 : 0 < 1 / sp_rate (p_sampling p)) by (apply Rdiv_lt_0_compat; [lra|exact V3]).
  exact (proj2 (end_calm _ _ _ _ _ _ _ V1 V2 (proj1 WD) J6 _ _ _ _ _ J2 D1 (damped_step p V WD) ME)).
Qed.

(** A disc is the intersection of strips. *)
Lemma disc_strip : forall a b q x r, a * a + b * b = 1 -> dist x q <= r -> within a b (coord a b q) r x.
Proof.
  intros a b q x r N H. unfold within. eapply Rle_trans; [|exact H]. unfold dist.
  set (u := vx x - vx q). set (v := vy x - vy q).
  assert (E : coord a b x - coord a b q = a * u + b * v) by (unfold coord, u, v; ring). rewrite E.
  rewrite <- sqrt_Rsqr_abs. apply sqrt_le_1_alt. unfold Rsqr.
  assert (Y : (a * a + b * b) * (u * u + v * v) - (a * u + b * v) * (a * u + b * v) = (a * v - b * u) * (a * v - b * u)) by ring.
  rewrite N, Rmult_1_l in Y. pose proof (Rle_0_sqr (a * v - b * u)) as Z. unfold Rsqr in Z. rewrite <- Y in Z.
  apply Rge_le, Rminus_ge, Rle_ge. eapply Rle_trans; [exact Z|]. right. unfold u, v. simpl. ring.
Qed.
Lemma strips_disc : forall q x r, 0 <= r -> (forall a b, a * a + b * b = 1 -> within a b (coord a b q) r x) -> dist x q <= r.
Proof.
  intros q x r R0 H. destruct (Req_dec (dist x q) 0) as [E|E]; [lra|].
  set (d := dist x q) in *. set (u := vx x - vx q : R). set (v := vy x - vy q : R).
  assert (D : d * d = u * u + v * v).
  { unfold d, dist. rewrite sqrt_sqrt; [unfold u, v; ring|]. apply Rplus_le_le_0_compat; apply Rle_0_sqr. }
  assert (D0 : 0 <= d) by apply sqrt_pos.
  specialize (H (u / d) (v / d)). assert (N : u / d * (u / d) + v / d * (v / d) = 1).
  { replace (u / d * (u / d) + v / d * (v / d)) with ((u * u + v * v) / (d * d)) by (field; exact E). rewrite <- D. field. exact E. }
  specialize (H N). unfold within in H.
  assert (Y : coord (u / d) (v / d) x - coord (u / d) (v / d) q = d).
  { replace (coord (u / d) (v / d) x - coord (u / d) (v / d) q) with ((u * u + v * v) / d) by (unfold coord, u, v; field; exact E). rewrite <- D. field. exact E. }
  rewrite Y, Rabs_pos_eq in H by exact D0. exact H.
Qed.
Lemma discs_strip : forall a b q r (l : list (Input (A := real_arith))), a * a + b * b = 1 -> Forall (fun i => dist (i_pos i) q <= r) l ->
  Forall (fun i => within a b (coord a b q) r (i_pos i)) l.
Proof. intros a b q r l N. apply Forall_impl. intros i. apply disc_strip. exact N. Qed.
Lemma dist_nn : forall x q, 0 <= dist x q.
Proof. intros x q. apply sqrt_pos. Qed.

(** If no input of the stroke is farther than [r] from [q], no result is farther than
    3.5 [r] from [q]. *)
Theorem C52_results_stay_near : forall (A := real_arith) fuel hist s p es seen q r,
  after_seen fuel hist s es seen -> ps_params s = Some p -> in_stroke s = true ->
  well_damped p -> sorted_if_smoothing (p_wobble p) seen -> 0 <= r -> Forall (fun i => dist (i_pos i) q <= r) seen ->
  Forall (fun e => Forall (fun o => dist (r_pos o) q <= 7 / 2 * r) (snd e)) es.
Proof.
  intros A fuel hist s p es seen q r AS P IS WD SO R0 F. apply Forall_forall. intros e E. apply Forall_forall. intros o O.
  apply strips_disc; [lra|]. intros a b N.
  pose proof (C52_results_in_strip fuel hist s p es seen a b (coord a b q) r AS P IS WD SO (discs_strip _ _ _ _ _ N F)) as H.
  rewrite Forall_forall in H. specialize (H e E). rewrite Forall_forall in H. exact (H o O).
Qed.
Theorem C52_update_stays_near : forall (A := real_arith) fuel hist s p es seen q r i rs out,
  after_seen fuel hist s es seen -> ps_params s = Some p -> well_damped p ->
  (i_event i <> EDown -> sorted_if_smoothing (p_wobble p) (seen ++ [i]) /\ Forall (fun i => dist (i_pos i) q <= r) seen) ->
  dist (i_pos i) q <= r ->
  answers fuel hist [CUpdate i rs] = Ret [RResults OkStatus (rs ++ out)] -> Forall (fun o => dist (r_pos o) q <= 7 / 2 * r) out.
Proof.
  intros A fuel hist s p es seen q r i rs out AS P WD H Q AN. apply Forall_forall. intros o O.
  apply strips_disc; [pose proof (dist_nn (i_pos i) q); lra|]. intros a b N.
  assert (H' : i_event i <> EDown -> sorted_if_smoothing (p_wobble p) (seen ++ [i]) /\ Forall (fun i => within a b (coord a b q) r (i_pos i)) seen).
  { intros E. destruct (H E) as [H1 H2]. split; [exact H1|]. exact (discs_strip _ _ _ _ _ N H2). }
  pose proof (C52_update_in_strip fuel hist s p es seen a b (coord a b q) r i rs out AS P WD H' (disc_strip _ _ _ _ _ N Q) AN) as K.
  rewrite Forall_forall in K. exact (K o O).
Qed.
Theorem C52_prediction_stays_near : forall (A := real_arith) fuel hist s p es seen q r rs out,
  after_seen fuel hist s es seen -> ps_params s = Some p -> p_prediction p = PredStrokeEnd -> seen <> [] ->
  well_damped p -> sorted_if_smoothing (p_wobble p) seen -> Forall (fun i => dist (i_pos i) q <= r) seen ->
  answers fuel hist [CPredict rs] = Ret [RResults OkStatus out] -> Forall (fun o => dist (r_pos o) q <= 7 / 2 * r) out.
Proof.
  intros A fuel hist s p es seen q r rs out AS P PS NE WD SO F AN. apply Forall_forall. intros o O.
  assert (R0 : 0 <= r) by (destruct seen as [|i seen]; [congruence|]; pose proof (dist_nn (i_pos i) q); pose proof (Forall_inv F) as F0; cbn beta in F0; lra).
  apply strips_disc; [lra|]. intros a b N.
  pose proof (C52_prediction_in_strip fuel hist s p es seen a b (coord a b q) r rs out AS P PS NE WD SO (discs_strip _ _ _ _ _ N F) AN) as K.
  rewrite Forall_forall in K. exact (K o O).
Qed.
