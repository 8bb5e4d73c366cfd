(** * The Kalman filter in binary64: for noise parameters with a certificate its
      estimate stays within a fixed multiple of the observations. *)
From Coq Require Import ZArith Bool List Reals Lra Lia Psatz QArith Qreals Qabs.
From Flocq Require Import Core.Core IEEE754.BinarySingleNaN Relative.
From Verif Require Export Stable.
Import ListNotations.
Open Scope R_scope.

(** ** Rounding errors of numbers up to 2^65 *)
Definition u53 : R := / 9007199254740992.
Lemma r64_error : forall x, Rabs (r64 x - x) <= u53 * Rabs x + eta.
Proof.
  intros x. destruct (error_N_FLT radix2 (-1074) 53 eq_refl (fun z => negb (Z.even z)) x) as (e & t & H1 & H2 & _ & H3).
  assert (H4 : r64 x = x * (1 + e) + t) by exact H3. rewrite H4. replace (x * (1 + e) + t - x) with (x * e + t) by ring.
  eapply Rle_trans; [apply Rabs_triang|]. rewrite Rabs_mult.
  assert (H0 : Rabs e <= / 2 * / 4503599627370496) by exact H1.
  assert (H5 : / 2 * bpow radix2 (-1074) <= eta).
  { unfold eta. apply Rle_trans with (bpow radix2 (-1074)); [pose proof (bpow_gt_0 radix2 (-1074)); lra|apply bpow_le; lia]. }
  unfold u53. pose proof (Rabs_pos x).
  assert (Rabs x * Rabs e <= Rabs x * (/ 2 * / 4503599627370496)) by (apply Rmult_le_compat_l; assumption). lra.
Qed.
Definition P65 : R := 36893488147419103232.
Lemma round_65 : forall z, Rabs z <= P65 -> small64 z /\ Rabs (r64 z - z) <= 8192.
Proof.
  intros z H. split; [apply small_le64; eapply Rle_trans; [exact H|apply IZR_le; lia]|].
  eapply Rle_trans; [apply r64_error|]. pose proof eta_small. unfold u53, P65 in *. lra.
Qed.
(** [x] is finite and within [e] of [r]. *)
Definition near64 (x : float64) (r e : R) : Prop := is_finite x = true /\ Rabs (B2R x - r) <= e.
Lemma near64_le : forall x r e f, near64 x r e -> e <= f -> near64 x r f.
Proof. intros x r e f [F H] L. split; [exact F|lra]. Qed.
Lemma near64_shift : forall x r s e f, near64 x r e -> Rabs (r - s) <= f -> near64 x s (e + f).
Proof.
  intros x r s e f [F H] L. split; [exact F|]. replace (B2R x - s) with ((B2R x - r) + (r - s)) by ring. eapply Rle_trans; [apply Rabs_triang|]. lra.
Qed.
Lemma near64_exact : forall x : float64, is_finite x = true -> near64 x (B2R x) 0.
Proof. intros x F. split; [exact F|]. rewrite Rminus_eq_0, Rabs_R0. lra. Qed.
Lemma near64_abs : forall x r e, near64 x r e -> Rabs (B2R x) <= Rabs r + e.
Proof. intros x r e [_ H]. replace (B2R x) with ((B2R x - r) + r) by ring. eapply Rle_trans; [apply Rabs_triang|]. lra. Qed.
Lemma near64_of : forall (x : float64) z r e, is_finite x = true -> B2R x = r64 z -> Rabs z <= P65 -> Rabs (z - r) <= e -> near64 x r (e + 8192).
Proof.
  intros x z r e F E S H. split; [exact F|]. rewrite E. destruct (round_65 z S) as [_ R].
  replace (r64 z - r) with ((r64 z - z) + (z - r)) by ring. eapply Rle_trans; [apply Rabs_triang|]. lra.
Qed.
Lemma near64_add : forall x y r s e f, near64 x r e -> near64 y s f -> Rabs r + Rabs s + e + f <= P65 -> near64 (Bplus mode_NE x y) (r + s) (e + f + 8192).
Proof.
  intros x y r s e f X Y B. pose proof (near64_abs _ _ _ X) as AX. pose proof (near64_abs _ _ _ Y) as AY. destruct X as [FX HX], Y as [FY HY].
  assert (S : Rabs (B2R x + B2R y) <= P65) by (eapply Rle_trans; [apply Rabs_triang|]; lra).
  destruct (plus_fin 53 1024 _ _ x y FX FY (proj1 (round_65 _ S))) as [F E]. apply (near64_of _ _ _ _ F E S).
  replace (B2R x + B2R y - (r + s)) with ((B2R x - r) + (B2R y - s)) by ring. eapply Rle_trans; [apply Rabs_triang|]. lra.
Qed.
Lemma near64_sub : forall x y r s e f, near64 x r e -> near64 y s f -> Rabs r + Rabs s + e + f <= P65 -> near64 (Bminus mode_NE x y) (r - s) (e + f + 8192).
Proof.
  intros x y r s e f X Y B. pose proof (near64_abs _ _ _ X) as AX. pose proof (near64_abs _ _ _ Y) as AY. destruct X as [FX HX], Y as [FY HY].
  assert (S : Rabs (B2R x - B2R y) <= P65) by (unfold Rminus; eapply Rle_trans; [apply Rabs_triang|]; rewrite Rabs_Ropp; lra).
  destruct (minus_fin 53 1024 _ _ x y FX FY (proj1 (round_65 _ S))) as [F E]. apply (near64_of _ _ _ _ F E S).
  replace (B2R x - B2R y - (r - s)) with ((B2R x - r) - (B2R y - s)) by ring. unfold Rminus at 1. eapply Rle_trans; [apply Rabs_triang|]. rewrite Rabs_Ropp. lra.
Qed.
(** [k] is close to [c]. *)
Lemma near64_mul : forall (k x : float64) c g r e m, near64 k c g -> near64 x r e -> Rabs r + e <= m -> (Rabs c + g) * m <= P65 -> 0 <= g -> 0 <= e ->
  near64 (Bmult mode_NE k x) (c * r) (Rabs c * e + g * m + 8192).
Proof.
  intros k x c g r e m K X M B G0 E0. pose proof (near64_abs _ _ _ X) as AX. pose proof (near64_abs _ _ _ K) as AK. destruct X as [FX HX], K as [FK HK].
  assert (S : Rabs (B2R k * B2R x) <= P65).
  { rewrite Rabs_mult. eapply Rle_trans; [|exact B]. apply Rmult_le_compat; try apply Rabs_pos; lra. }
  destruct (mult_fin 53 1024 _ _ k x FK FX (proj1 (round_65 _ S))) as [F E]. apply (near64_of _ _ _ _ F E S).
  replace (B2R k * B2R x - c * r) with (c * (B2R x - r) + (B2R k - c) * B2R x) by ring. eapply Rle_trans; [apply Rabs_triang|]. rewrite !Rabs_mult.
  apply Rplus_le_compat; [apply Rmult_le_compat_l; [apply Rabs_pos|exact HX]|]. apply Rmult_le_compat; try apply Rabs_pos; lra.
Qed.
Lemma mult_comm64 : forall k x : float64, is_finite k = true -> is_finite x = true -> Rabs (B2R k * B2R x) <= P65 ->
  is_finite (Bmult mode_NE x k) = true /\ B2R (Bmult mode_NE x k) = B2R (Bmult mode_NE k x).
Proof.
  intros k x FK FX S. destruct (round_65 _ S) as [SM _].
  destruct (mult_fin 53 1024 _ _ k x FK FX SM) as [_ E1]. rewrite Rmult_comm in SM. destruct (mult_fin 53 1024 _ _ x k FX FK SM) as [F2 E2].
  split; [exact F2|]. rewrite E1, E2. f_equal. apply Rmult_comm.
Qed.

(** ** Certificates
    Linear functionals of the four components of the estimate (position,
    velocity, acceleration, jerk), with rational coefficients. *)
Record Q4 : Type := mkQ4 { a0 : Q; a1 : Q; a2 : Q; a3 : Q }.
Definition lin (s : Q4) (x0 x1 x2 x3 : R) : R := Q2R (a0 s) * x0 + Q2R (a1 s) * x1 + Q2R (a2 s) * x2 + Q2R (a3 s) * x3.
Open Scope Q_scope.
Definition zero4 : Q4 := mkQ4 0 0 0 0.
Definition add4 (s t : Q4) : Q4 := mkQ4 (Qred (a0 s + a0 t)) (Qred (a1 s + a1 t)) (Qred (a2 s + a2 t)) (Qred (a3 s + a3 t)).
Definition scale4 (k : Q) (s : Q4) : Q4 := mkQ4 (Qred (k * a0 s)) (Qred (k * a1 s)) (Qred (k * a2 s)) (Qred (k * a3 s)).
Definition sub4 (s t : Q4) : Q4 := add4 s (scale4 (-1) t).
Definition size4 (s : Q4) : Q := Qred (Qabs (a0 s) + Qabs (a1 s) + Qabs (a2 s) + Qabs (a3 s)).
Fixpoint comb (rs : list Q) (ss : list Q4) : Q4 :=
  match rs, ss with r :: rs', s :: ss' => add4 (scale4 r s) (comb rs' ss') | _, _ => zero4 end.
Fixpoint total_abs (rs : list Q) : Q := match rs with [] => 0 | r :: rs' => Qred (Qabs r + total_abs rs') end.
(** The functional [s] after a time step, [x0 + x1 + x2/2 + x3/6] etc. *)
Definition after_step (s : Q4) : Q4 :=
  mkQ4 (a0 s) (Qred (a0 s + a1 s)) (Qred ((1#2) * a0 s + a1 s + a2 s)) (Qred ((1#6) * a0 s + (1#2) * a1 s + a2 s + a3 s)).
(** The predicted position. *)
Definition ahead : Q4 := mkQ4 1 1 (1#2) (1#6).
Definition at4 (s : Q4) (k : Q4) : Q := Qred (a0 s * a0 k + a1 s * a1 k + a2 s * a2 k + a3 s * a3 k).

(** A functional [r_s] that measures the estimate; [r_step], the combination of
    such rows a step makes of it with the gain the filter settles to; a bound
    [r_base] on that combination; the functional of that gain; and what rounding
    errors add. *)
Record row : Type := mkRow { r_s : Q4; r_step : list Q; r_base : Q; r_gain : Q; r_slack : Q }.
(** [c_gain], the gain the filter settles to; [c_unit], the components as
    combinations of the rows, and [c_ahead], the predicted position; [c_bounds],
    bounds on the rows after one, two, ... observations of size one. *)
Record certificate : Type := mkCert {
  c_full : list row; c_gain : Q4; c_unit : list (list Q); c_ahead : list Q;
  c_w : Q; c_c : Q; c_bounds : list Q; c_pre : nat; c_len : nat
}.
Definition c_rows (cert : certificate) : list Q4 := map r_s (c_full cert).
Definition units : list Q4 := [mkQ4 1 0 0 0; mkQ4 0 1 0 0; mkQ4 0 0 1 0; mkQ4 0 0 0 1].
Definition rest4 (cert : certificate) (t : Q4) (rs : list Q) : Q := size4 (sub4 t (comb rs (c_rows cert))).
Definition unit_ok (cert : certificate) (t : Q4) (rs : list Q) : bool :=
  Qle_bool (rest4 cert t rs) (1#2) && Qle_bool (total_abs rs + rest4 cert t rs * c_w cert) (c_w cert).
Fixpoint forall2b {X Y} (f : X -> Y -> bool) (l : list X) (m : list Y) : bool :=
  match l, m with [], [] => true | x :: l', y :: m' => f x y && forall2b f l' m' | _, _ => false end.
Definition bound_at (cert : certificate) (n : nat) : Q := nth n (c_bounds cert) (last (c_bounds cert) 0).
Definition row_ok (cert : certificate) (r : row) : bool :=
  let m := sub4 (after_step (r_s r)) (scale4 (at4 (r_s r) (c_gain cert)) ahead) in
  Qle_bool (total_abs (r_step r) + size4 (sub4 m (comb (r_step r) (c_rows cert))) * c_w cert) (r_base r) &&
  Qeq_bool (at4 (r_s r) (c_gain cert)) (r_gain r) && Qle_bool (size4 (r_s r) * (1#256)) (r_slack r).
Definition static_ok (cert : certificate) : bool :=
  forall2b (unit_ok cert) units (c_unit cert) &&
  Qle_bool (total_abs (c_ahead cert) + rest4 cert ahead (c_ahead cert) * c_w cert) (c_c cert) &&
  forallb (row_ok cert) (c_full cert) &&
  Qle_bool 0 (c_c cert) && Qle_bool 0 (c_w cert) &&
  forallb (fun b => Qle_bool 0 b && Qle_bool (c_w cert * b) 33554432) (c_bounds cert) &&
  negb (Nat.eqb (List.length (c_bounds cert)) 0) &&
  forallb (fun s => Qle_bool (Qabs (a0 s)) (bound_at cert 0)) (c_rows cert).
(** What a step with gain [k] makes of the row [r] when the rows are at most [b]. *)
Definition row_bound (cert : certificate) (k : Q4) (b : Q) (r : row) : Q :=
  let a := at4 (r_s r) k in (r_base r + Qabs (a - r_gain r) * c_c cert) * b + Qabs a + r_slack r.
Definition gain_size (k : Q4) : bool := Qle_bool (Qabs (a0 k)) 8 && Qle_bool (Qabs (a1 k)) 8 && Qle_bool (Qabs (a2 k)) 8 && Qle_bool (Qabs (a3 k)) 8.
Definition step_within (cert : certificate) (k : Q4) (b b' : Q) : bool :=
  gain_size k && forallb (fun r => Qle_bool (row_bound cert k b r) b') (c_full cert).
Close Scope Q_scope.

(** A finite binary64 as a fraction. *)
Definition to_Q (x : float64) : Q :=
  match x with
  | B754_finite s m e _ =>
      let z := if s then Zneg m else Zpos m in
      Qred (if Z.leb 0 e then inject_Z (z * 2 ^ e) else Qmake z (Z.to_pos (2 ^ (- e))))
  | _ => 0%Q
  end.
(** Equal to the last bit. *)
Definition same64 (x y : float64) : bool :=
  match x, y with
  | B754_zero s, B754_zero t => Bool.eqb s t
  | B754_infinity s, B754_infinity t => Bool.eqb s t
  | B754_nan, B754_nan => true
  | B754_finite s m e _, B754_finite t n f _ => Bool.eqb s t && Pos.eqb m n && Z.eqb e f
  | _, _ => false
  end.

(** ** What the certificate says about real vectors *)
Lemma Q2R_red : forall q, Q2R (Qred q) = Q2R q.
Proof. intros q. apply Qeq_eqR, Qred_correct. Qed.
Lemma Q2R_abs : forall q, Q2R (Qabs q) = Rabs (Q2R q).
Proof.
  intros q. destruct (Qlt_le_dec q 0) as [H|H].
  - rewrite (Qeq_eqR _ _ (Qabs_neg q (Qlt_le_weak _ _ H))), Q2R_opp. apply Qlt_Rlt in H. rewrite RMicromega.Q2R_0 in H. rewrite Rabs_left; lra.
  - rewrite (Qeq_eqR _ _ (Qabs_pos q H)). apply Qle_Rle in H. rewrite RMicromega.Q2R_0 in H. rewrite Rabs_right; lra.
Qed.
Lemma Qle_bool_R : forall p q, Qle_bool p q = true -> Q2R p <= Q2R q.
Proof. intros p q H. apply Qle_Rle, Qle_bool_iff, H. Qed.
Ltac q2r := rewrite ?Q2R_red, ?Q2R_plus, ?Q2R_mult, ?Q2R_minus, ?Q2R_opp, ?Q2R_abs.
Lemma Q2R_n1 : Q2R (-1) = -1. Proof. unfold Q2R. simpl. lra. Qed.
Lemma Q2R_1 : Q2R 1 = 1. Proof. unfold Q2R. simpl. lra. Qed.
Lemma Q2R_0' : Q2R 0 = 0. Proof. unfold Q2R. simpl. lra. Qed.
Lemma Q2R_half : Q2R (1#2) = / 2. Proof. unfold Q2R. simpl. lra. Qed.
Lemma Q2R_sixth : Q2R (1#6) = / 6. Proof. unfold Q2R. simpl. lra. Qed.

Lemma four_rows : forall (f : Q4 -> list Q -> bool) m, forall2b f units m = true ->
  exists r0 r1 r2 r3, f (mkQ4 1 0 0 0) r0 = true /\ f (mkQ4 0 1 0 0) r1 = true /\ f (mkQ4 0 0 1 0) r2 = true /\ f (mkQ4 0 0 0 1) r3 = true.
Proof.
  intros f m H. unfold units in H. destruct m as [|r0 m]; [discriminate H|]. cbn [forall2b] in H. apply andb_prop in H. destruct H as [H0 H].
  destruct m as [|r1 m]; [discriminate H|]. cbn [forall2b] in H. apply andb_prop in H. destruct H as [H1 H].
  destruct m as [|r2 m]; [discriminate H|]. cbn [forall2b] in H. apply andb_prop in H. destruct H as [H2 H].
  destruct m as [|r3 m]; [discriminate H|]. cbn [forall2b] in H. apply andb_prop in H. destruct H as [H3 H].
  exists r0, r1, r2, r3. repeat split; assumption.
Qed.
Section Vector.
Variables x0 x1 x2 x3 : R.
Notation L s := (lin s x0 x1 x2 x3).
Lemma lin_add : forall s t, L (add4 s t) = L s + L t.
Proof. intros s t. unfold lin, add4; cbn [a0 a1 a2 a3]. q2r. ring. Qed.
Lemma lin_scale : forall k s, L (scale4 k s) = Q2R k * L s.
Proof. intros k s. unfold lin, scale4; cbn [a0 a1 a2 a3]. q2r. ring. Qed.
Lemma lin_sub : forall s t, L (sub4 s t) = L s - L t.
Proof. intros s t. unfold sub4. rewrite lin_add, lin_scale, Q2R_n1. ring. Qed.
Lemma lin_zero : L zero4 = 0.
Proof. unfold lin, zero4; cbn [a0 a1 a2 a3]. rewrite Q2R_0'. ring. Qed.
Lemma lin_size : forall s X, Rabs x0 <= X -> Rabs x1 <= X -> Rabs x2 <= X -> Rabs x3 <= X -> Rabs (L s) <= Q2R (size4 s) * X.
Proof.
  intros s X H0 H1 H2 H3. unfold lin, size4. q2r.
  repeat (eapply Rle_trans; [apply Rabs_triang|]). rewrite !Rmult_plus_distr_r.
  apply Rplus_le_compat; [eapply Rle_trans; [apply Rabs_triang|]; apply Rplus_le_compat; [eapply Rle_trans; [apply Rabs_triang|]; apply Rplus_le_compat|]|];
  rewrite Rabs_mult; apply Rmult_le_compat_l; try apply Rabs_pos; assumption.
Qed.
Lemma total_abs_pos : forall rs, 0 <= Q2R (total_abs rs).
Proof. induction rs as [|r rs IH]; cbn [total_abs]; [rewrite Q2R_0'; lra|]. q2r. pose proof (Rabs_pos (Q2R r)). lra. Qed.
Lemma size4_pos : forall s, 0 <= Q2R (size4 s).
Proof. intros s. unfold size4. q2r. pose proof (Rabs_pos (Q2R (a0 s))); pose proof (Rabs_pos (Q2R (a1 s))); pose proof (Rabs_pos (Q2R (a2 s))); pose proof (Rabs_pos (Q2R (a3 s))). lra. Qed.
Lemma comb_bound : forall rs ss N, 0 <= N -> Forall (fun s => Rabs (L s) <= N) ss -> Rabs (L (comb rs ss)) <= Q2R (total_abs rs) * N.
Proof.
  induction rs as [|r rs IH]; intros ss N N0 H; cbn [comb total_abs]; [rewrite lin_zero, Rabs_R0, Q2R_0'; lra|].
  destruct ss as [|s ss].
  - rewrite lin_zero, Rabs_R0. apply Rmult_le_pos; [apply (total_abs_pos (r :: rs))|exact N0].
  - rewrite lin_add, lin_scale. q2r. eapply Rle_trans; [apply Rabs_triang|]. rewrite Rabs_mult, Rmult_plus_distr_r.
    apply Rplus_le_compat; [apply Rmult_le_compat_l; [apply Rabs_pos|exact (Forall_inv H)]|apply IH; [exact N0|exact (Forall_inv_tail H)]].
Qed.
Lemma lin_by : forall cert t rs N X, 0 <= N -> Forall (fun s => Rabs (L s) <= N) (c_rows cert) ->
  Rabs x0 <= X -> Rabs x1 <= X -> Rabs x2 <= X -> Rabs x3 <= X ->
  Rabs (L t) <= Q2R (total_abs rs) * N + Q2R (rest4 cert t rs) * X.
Proof.
  intros cert t rs N X N0 H H0 H1 H2 H3. unfold rest4. set (g := sub4 t (comb rs (c_rows cert))).
  assert (E : L t = L (comb rs (c_rows cert)) + L g) by (unfold g; rewrite lin_sub; ring). rewrite E.
  eapply Rle_trans; [apply Rabs_triang|]. apply Rplus_le_compat; [apply comb_bound; assumption|apply lin_size; assumption].
Qed.
(** The components are at most [w] times the rows. *)
Lemma components : forall cert N, static_ok cert = true -> 0 <= N -> Forall (fun s => Rabs (L s) <= N) (c_rows cert) ->
  let X := Q2R (c_w cert) * N in Rabs x0 <= X /\ Rabs x1 <= X /\ Rabs x2 <= X /\ Rabs x3 <= X.
Proof.
  intros cert N S N0 H X. set (w := Q2R (c_w cert)) in *.
  unfold static_ok in S. repeat (apply andb_prop in S; destruct S as [S ?]).
  set (M := Rmax (Rmax (Rabs x0) (Rabs x1)) (Rmax (Rabs x2) (Rabs x3))).
  assert (M0 : Rabs x0 <= M) by (unfold M; eapply Rle_trans; [apply Rmax_l|]; apply Rmax_l).
  assert (M1 : Rabs x1 <= M) by (unfold M; eapply Rle_trans; [apply Rmax_r|]; apply Rmax_l).
  assert (M2 : Rabs x2 <= M) by (unfold M; eapply Rle_trans; [apply Rmax_l|]; apply Rmax_r).
  assert (M3 : Rabs x3 <= M) by (unfold M; eapply Rle_trans; [apply Rmax_r|]; apply Rmax_r).
  assert (MP : 0 <= M) by (eapply Rle_trans; [apply Rabs_pos|exact M0]).
  assert (W0 : 0 <= w) by (unfold w; rewrite <- Q2R_0'; apply Qle_bool_R; assumption).
  assert (C : forall t rs, unit_ok cert t rs = true -> Rabs (L t) = M -> M <= X).
  { intros t rs U E. unfold unit_ok in U. apply andb_prop in U. destruct U as [U1 U2]. apply Qle_bool_R in U1. apply Qle_bool_R in U2.
    rewrite Q2R_plus, Q2R_mult in U2. rewrite Q2R_half in U1. fold w in U2.
    pose proof (lin_by cert t rs N M N0 H M0 M1 M2 M3) as B. rewrite E in B. set (d := Q2R (rest4 cert t rs)) in *. set (ta := Q2R (total_abs rs)) in *.
    assert (D0 : 0 <= d) by apply size4_pos. unfold X.
    assert (ta * N <= (w - d * w) * N) by (apply Rmult_le_compat_r; lra). assert ((1 - d) * M <= (1 - d) * (w * N)) by lra.
    apply Rmult_le_reg_l with (1 - d); lra. }
  assert (E : forall y t rs, unit_ok cert t rs = true -> L t = y -> M = Rabs y -> M <= X).
  { intros y t rs U E1 E2. apply (C t rs U). congruence. }
  assert (B : M <= X).
  { destruct (four_rows _ _ S) as (r0 & r1 & r2 & r3 & U0 & U1 & U2 & U3).
    assert (MM : M = Rabs x0 \/ M = Rabs x1 \/ M = Rabs x2 \/ M = Rabs x3).
    { unfold M, Rmax. destruct (Rle_dec (Rabs x0) (Rabs x1)); destruct (Rle_dec (Rabs x2) (Rabs x3)); match goal with |- context[Rle_dec ?p ?q] => destruct (Rle_dec p q) end; tauto. }
    destruct MM as [MM|[MM|[MM|MM]]].
    - apply (E x0 _ r0 U0); [unfold lin; cbn [a0 a1 a2 a3]; rewrite Q2R_0', Q2R_1; ring|exact MM].
    - apply (E x1 _ r1 U1); [unfold lin; cbn [a0 a1 a2 a3]; rewrite Q2R_0', Q2R_1; ring|exact MM].
    - apply (E x2 _ r2 U2); [unfold lin; cbn [a0 a1 a2 a3]; rewrite Q2R_0', Q2R_1; ring|exact MM].
    - apply (E x3 _ r3 U3); [unfold lin; cbn [a0 a1 a2 a3]; rewrite Q2R_0', Q2R_1; ring|exact MM]. }
  lra.
Qed.
End Vector.
(** One step: the estimate [x], the gain [k], the observation [z], and errors
    [e0] ... [e3] of at most a 256th of the bound [O] on the observations. *)
Lemma row_step : forall cert k b r x0 x1 x2 x3 z e0 e1 e2 e3 O, static_ok cert = true -> 0 <= O ->
  In r (c_full cert) -> 0 <= Q2R b ->
  Forall (fun s => Rabs (lin s x0 x1 x2 x3) <= Q2R b * O) (c_rows cert) -> Rabs z <= O ->
  Rabs e0 <= O / 256 -> Rabs e1 <= O / 256 -> Rabs e2 <= O / 256 -> Rabs e3 <= O / 256 ->
  let t0 := x0 + x1 + x2 / 2 + x3 / 6 in let t1 := x1 + x2 + x3 / 2 in let t2 := x2 + x3 in let i := z - t0 in
  Rabs (lin (r_s r) (t0 + Q2R (a0 k) * i + e0) (t1 + Q2R (a1 k) * i + e1) (t2 + Q2R (a2 k) * i + e2) (x3 + Q2R (a3 k) * i + e3)) <= Q2R (row_bound cert k b r) * O.
Proof.
  intros cert k b r x0 x1 x2 x3 z e0 e1 e2 e3 O S O0 I B0 H Z E0 E1 E2 E3 t0 t1 t2 i. set (s := r_s r) in *. set (rs := r_step r).
  assert (RO : row_ok cert r = true).
  { unfold static_ok in S. do 5 (apply andb_prop in S; destruct S as [S _]). apply andb_prop in S. destruct S as [_ S]. rewrite forallb_forall in S. exact (S r I). }
  unfold row_ok in RO. cbn zeta in RO. apply andb_prop in RO. destruct RO as [RO R3]. apply andb_prop in RO. destruct RO as [R1 R2].
  apply Qle_bool_R in R1. apply Qeq_bool_eq in R2. apply Qeq_eqR in R2. apply Qle_bool_R in R3. fold s rs in R1, R2, R3.
  destruct (components x0 x1 x2 x3 cert (Q2R b * O) S ltac:(apply Rmult_le_pos; assumption) H) as (X0 & X1 & X2 & X3).
  set (X := Q2R (c_w cert) * (Q2R b * O)) in *.
  set (m := sub4 (after_step s) (scale4 (at4 s (c_gain cert)) ahead)).
  set (kb := Q2R (at4 s (c_gain cert))). set (kk := Q2R (at4 s k)).
  assert (HA : lin ahead x0 x1 x2 x3 = t0).
  { unfold lin, ahead, t0; cbn [a0 a1 a2 a3]. rewrite Q2R_1, Q2R_half, Q2R_sixth. field. }
  assert (HM : lin m x0 x1 x2 x3 = lin (after_step s) x0 x1 x2 x3 - kb * t0).
  { unfold m. rewrite lin_sub, lin_scale, HA. reflexivity. }
  assert (EQ : lin s (t0 + Q2R (a0 k) * i + e0) (t1 + Q2R (a1 k) * i + e1) (t2 + Q2R (a2 k) * i + e2) (x3 + Q2R (a3 k) * i + e3)
    = lin m x0 x1 x2 x3 - (kk - kb) * t0 + kk * z + lin s e0 e1 e2 e3).
  { rewrite HM. unfold kk, lin, at4, after_step, i, t0, t1, t2; cbn [a0 a1 a2 a3]. q2r. rewrite Q2R_half, Q2R_sixth. field. }
  rewrite EQ. clear EQ.
  assert (BM : Rabs (lin m x0 x1 x2 x3) <= Q2R (total_abs rs) * (Q2R b * O) + Q2R (size4 (sub4 m (comb rs (c_rows cert)))) * X).
  { apply (lin_by x0 x1 x2 x3 cert m rs); try assumption. apply Rmult_le_pos; assumption. }
  assert (BT : Rabs t0 <= Q2R (c_c cert) * (Q2R b * O)).
  { rewrite <- HA. eapply Rle_trans; [apply (lin_by x0 x1 x2 x3 cert ahead (c_ahead cert) (Q2R b * O) X); try assumption; apply Rmult_le_pos; assumption|].
    unfold X. rewrite <- (Rmult_assoc (Q2R (rest4 cert ahead (c_ahead cert)))), <- Rmult_plus_distr_r. apply Rmult_le_compat_r; [apply Rmult_le_pos; assumption|].
    unfold static_ok in S. repeat (apply andb_prop in S; destruct S as [S ?]).
    rewrite <- Q2R_mult, <- Q2R_plus. apply Qle_bool_R. assumption. }
  assert (BE : Rabs (lin s e0 e1 e2 e3) <= Q2R (size4 s) * (O / 256)) by (apply lin_size; assumption).
  assert (BK : Rabs ((kk - kb) * t0) <= Rabs (kk - kb) * (Q2R (c_c cert) * (Q2R b * O))) by (rewrite Rabs_mult; apply Rmult_le_compat_l; [apply Rabs_pos|exact BT]).
  assert (BZ : Rabs (kk * z) <= Rabs kk * O) by (rewrite Rabs_mult; apply Rmult_le_compat_l; [apply Rabs_pos|exact Z]).
  fold m in R1. rewrite Q2R_plus, Q2R_mult in R1. rewrite Q2R_mult in R3. replace (Q2R (1#256)) with (/ 256) in R3 by (unfold Q2R; simpl; lra).
  unfold row_bound. cbn zeta. fold s. rewrite !Q2R_plus, !Q2R_mult, !Q2R_plus, !Q2R_mult, !Q2R_abs, Q2R_minus, <- R2. fold kk kb.
  unfold Rminus at 1.
  eapply Rle_trans; [apply Rabs_triang|].
  eapply Rle_trans; [apply Rplus_le_compat; [eapply Rle_trans; [apply Rabs_triang|]; apply Rplus_le_compat; [eapply Rle_trans; [apply Rabs_triang|]; apply Rplus_le_compat; [exact BM|rewrite Rabs_Ropp; exact BK]|exact BZ]|exact BE]|].
  set (ta := Q2R (total_abs rs)) in *. set (sz := Q2R (size4 (sub4 m (comb rs (c_rows cert))))) in *. set (w := Q2R (c_w cert)) in *. set (ss := Q2R (size4 s)) in *. set (bb := Q2R b) in *. set (base := Q2R (r_base r)) in *. set (sl := Q2R (r_slack r)) in *. set (cc := Q2R (c_c cert)) in *.
  assert (W1 : (ta + sz * w) * (bb * O) <= base * (bb * O)) by (apply Rmult_le_compat_r; [apply Rmult_le_pos; assumption|exact R1]).
  assert (W2 : (ss * / 256) * O <= sl * O) by (apply Rmult_le_compat_r; assumption).
  unfold X. replace ((base + Rabs (kk - kb) * cc) * bb + Rabs kk + sl) with (base * bb + Rabs (kk - kb) * (cc * bb) + Rabs kk + sl) by ring.
  rewrite !Rmult_plus_distr_r. clear - W1 W2. unfold Rdiv. replace (sz * (w * (bb * O))) with (sz * w * (bb * O)) by ring. replace (base * bb * O) with (base * (bb * O)) by ring.
  replace (Rabs (kk - kb) * (cc * bb) * O) with (Rabs (kk - kb) * (cc * (bb * O))) by ring. lra.
Qed.

(** ** Sequences that become periodic *)
Section Periodic.
Context {X Y : Type}.
Variables (step : X -> X * Y) (good : nat -> Y -> bool).
Definition next (x : X) : X := fst (step x).
Definition output (x : X) : Y := snd (step x).
Fixpoint iterate (n : nat) (x : X) : X := match n with O => x | S k => iterate k (next x) end.
Fixpoint run (count n : nat) (x : X) : option X :=
  match count with O => Some x | S c => let (x', y) := step x in if good n y then run c (S n) x' else None end.
Lemma iterate_next : forall n x, iterate n (next x) = next (iterate n x).
Proof. induction n as [|n IH]; intros x; cbn [iterate]; [reflexivity|apply IH]. Qed.
Lemma iterate_S : forall n x, iterate (S n) x = next (iterate n x).
Proof. intros n x. cbn [iterate]. apply iterate_next. Qed.
Lemma iterate_add : forall m n x, iterate m (iterate n x) = iterate (m + n) x.
Proof. induction m as [|m IH]; intros n x; [reflexivity|]. rewrite Nat.add_succ_l, !iterate_S, IH. reflexivity. Qed.
Lemma run_good : forall c n x y, run c n x = Some y -> y = iterate c x /\ forall j, (j < c)%nat -> good (n + j) (output (iterate j x)) = true.
Proof.
  induction c as [|c IH]; intros n x y H; cbn [run] in H; [injection H as <-; split; [reflexivity|intros j L; lia]|].
  destruct (step x) as [x' o] eqn:E. destruct (good n o) eqn:G; [|discriminate H]. destruct (IH _ _ _ H) as [E1 E2].
  assert (N : next x = x') by (unfold next; rewrite E; reflexivity). split; [cbn [iterate]; rewrite N; exact E1|]. intros [|j] L.
  - rewrite Nat.add_0_r. cbn [iterate]. unfold output. rewrite E. exact G.
  - replace (n + S j)%nat with (S n + j)%nat by lia. cbn [iterate]. rewrite N. apply E2. lia.
Qed.
Lemma good_forever : forall pre len x y, (0 < len)%nat -> run pre 0 x = Some y -> run len pre y = Some y ->
  (forall m n y, (pre <= m)%nat -> (pre <= n)%nat -> good m y = good n y) -> forall n, good n (output (iterate n x)) = true.
Proof.
  intros pre len x y L R1 R2 E. destruct (run_good _ _ _ _ R1) as [EY G1]. destruct (run_good _ _ _ _ R2) as [P G2]. cbn [Nat.add] in G1.
  assert (PE : forall n, (pre <= n)%nat -> iterate (n + len) x = iterate n x).
  { intros n LE. induction LE as [|n LE IH]; [rewrite Nat.add_comm, <- iterate_add, <- EY; symmetry; exact P|]. rewrite Nat.add_succ_l, !iterate_S, IH. reflexivity. }
  apply (well_founded_induction lt_wf). intros n IH. destruct (Nat.lt_ge_cases n pre) as [LT|GE]; [apply G1, LT|].
  destruct (Nat.lt_ge_cases n (pre + len)) as [LT|GE2].
  - specialize (G2 (n - pre)%nat ltac:(lia)). rewrite EY, iterate_add in G2. replace (pre + (n - pre))%nat with n in G2 by lia. replace (n - pre + pre)%nat with n in G2 by lia. exact G2.
  - specialize (IH (n - len)%nat ltac:(lia)). rewrite (E _ n) in IH by lia. rewrite <- (PE (n - len)%nat) in IH by lia.
    replace (n - len + len)%nat with n in IH by lia. exact IH.
Qed.
End Periodic.

(** ** The covariances, which do not depend on the observations *)
Section Orbit.
Context {A : Arith}.
Variables pn mn : D.
Definition cov_step (P : Mat4) : Mat4 * Vec4 :=
  let P1 := mat4_add (mat4_mul (mat4_mul kf_transition P) (mat4_transpose kf_transition)) (kf_noise pn) in
  let gain := vec4_div (vec4_mat kf_measure P1) (kf_innovation_var mn P1) in
  let i_kh := mat4_sub mat4_id (outer4 gain kf_measure) in
  (mat4_add (mat4_mul (mat4_mul i_kh P1) (mat4_transpose i_kh)) (mat4_scale (outer4 gain gain) mn), gain).
Lemma update_first : forall f z f', kf_update pn mn f z = Ret f' -> kf_iter f = 0%Z ->
  f' = mkKF (mkVec4 z (q1 (kf_state f)) (q2 (kf_state f)) (q3 (kf_state f))) (kf_cov f) (kf_iter f + 1).
Proof.
  intros f z f' H E. unfold kf_update in H. destruct (Z.leb INT_MAX (kf_iter f)); [discriminate H|]. rewrite E in *. cbn [Z.eqb] in H. apply ret_inj in H. symmetry. exact H.
Qed.
Lemma update_next : forall f z f', kf_update pn mn f z = Ret f' -> kf_iter f <> 0%Z ->
  kf_iter f' = (kf_iter f + 1)%Z /\ kf_cov f' = next cov_step (kf_cov f) /\
  kf_state f' = (let p := mat4_vec kf_transition (kf_state f) in vec4_add p (vec4_scale (output cov_step (kf_cov f)) (dsub z (dot4 kf_measure p)))).
Proof.
  intros f z f' H E. unfold kf_update in H. destruct (Z.leb INT_MAX (kf_iter f)); [discriminate H|]. apply Z.eqb_neq in E. rewrite E in H. apply ret_inj in H. subst f'.
  split; [reflexivity|split; reflexivity].
Qed.
End Orbit.

Lemma to_Q_ok : forall x : float64, is_finite x = true -> Q2R (to_Q x) = B2R x.
Proof.
  intros [s|s| |s m e Hb] F; try discriminate F; [unfold to_Q; rewrite Q2R_0'; reflexivity|].
  unfold to_Q. rewrite Q2R_red. cbn [B2R]. unfold F2R. cbn [Fnum Fexp].
  assert (E : cond_Zopp s (Zpos m) = if s then Zneg m else Zpos m) by (destruct s; reflexivity). rewrite E.
  set (z := if s then Zneg m else Zpos m). destruct (Z.leb_spec 0 e) as [L|L].
  - unfold Q2R, inject_Z. simpl. rewrite mult_IZR, Rinv_1, Rmult_1_r. f_equal. change 2%Z with (radix_val radix2). rewrite IZR_Zpower; [reflexivity|exact L].
  - unfold Q2R. simpl. f_equal. assert (P : (0 < 2 ^ (- e))%Z) by (apply Z.pow_pos_nonneg; lia). rewrite Z2Pos.id; [|exact P].
    change 2%Z with (radix_val radix2). rewrite IZR_Zpower; [|lia]. rewrite <- bpow_opp, Z.opp_involutive. reflexivity.
Qed.
Lemma same64_eq : forall x y : float64, same64 x y = true -> x = y.
Proof.
  intros x y H. apply B2SF_inj. destruct x as [s|s| |s m e Hx], y as [t|t| |t n f Hy]; simpl in H; try discriminate H; try reflexivity.
  - apply eqb_prop in H. subst. reflexivity.
  - apply eqb_prop in H. subst. reflexivity.
  - apply andb_prop in H. destruct H as [H E]. apply andb_prop in H. destruct H as [S M].
    apply eqb_prop in S. apply Pos.eqb_eq in M. apply Z.eqb_eq in E. subst. reflexivity.
Qed.

Section Filtering.
Variable acosf : float32 -> float32.
Let A := ieee acosf.
Existing Instance A.
Variable step : Mat4 (A := A) -> Mat4 (A := A) * Vec4 (A := A).
Definition vec_Q (k : Vec4 (A := A)) : Q4 := mkQ4 (to_Q (q0 k)) (to_Q (q1 k)) (to_Q (q2 k)) (to_Q (q3 k)).
Definition vec_finite (k : Vec4 (A := A)) : bool := is_finite (q0 k) && is_finite (q1 k) && is_finite (q2 k) && is_finite (q3 k).
Definition step_good (cert : certificate) (n : nat) (k : Vec4 (A := A)) : bool :=
  vec_finite k && step_within cert (vec_Q k) (bound_at cert n) (bound_at cert (S n)).
Definition same_vec (a b : Vec4 (A := A)) : bool := same64 (q0 a) (q0 b) && same64 (q1 a) (q1 b) && same64 (q2 a) (q2 b) && same64 (q3 a) (q3 b).
Definition same_mat (a b : Mat4 (A := A)) : bool := same_vec (row0 a) (row0 b) && same_vec (row1 a) (row1 b) && same_vec (row2 a) (row2 b) && same_vec (row3 a) (row3 b).
(** The covariances repeat after [c_pre] steps, with period [c_len]; the bounds
    are constant from there on; every step up to there keeps the bounds. *)
Definition certified (cert : certificate) : bool :=
  static_ok cert && Nat.leb (List.length (c_bounds cert)) (S (c_pre cert)) && negb (Nat.eqb (c_len cert) 0) &&
  match run step (step_good cert) (c_pre cert) 0 (mat4_id (A := A)) with
  | Some P => match run step (step_good cert) (c_len cert) (c_pre cert) P with Some P' => same_mat P P' | None => false end
  | None => false
  end.

Lemma same_mat_eq : forall a b, same_mat a b = true -> a = b.
Proof.
  intros [[a00 a01 a02 a03] [a10 a11 a12 a13] [a20 a21 a22 a23] [a30 a31 a32 a33]] [[b00 b01 b02 b03] [b10 b11 b12 b13] [b20 b21 b22 b23] [b30 b31 b32 b33]] H.
  unfold same_mat, same_vec in H. cbn [row0 row1 row2 row3 q0 q1 q2 q3] in H.
  repeat (apply andb_prop in H; destruct H as [H ?]).
  repeat match goal with X : _ && _ = true |- _ => apply andb_prop in X; destruct X end.
  repeat match goal with X : same64 _ _ = true |- _ => apply same64_eq in X; rewrite X; clear X end. reflexivity.
Qed.
Lemma exists_last_or : forall {X} (l : list X), l = [] \/ exists l' x, l = l' ++ [x].
Proof. intros X l. destruct l as [|y l]; [left; reflexivity|right]. destruct (exists_last (l := y :: l) ltac:(discriminate)) as (l' & x & E). exists l', x. exact E. Qed.
Definition cov_at (n : nat) : Mat4 (A := A) := iterate step n (mat4_id (A := A)).
Lemma all_steps : forall cert, certified cert = true -> forall n, step_good cert n (output step (cov_at n)) = true.
Proof.
  intros cert C. unfold certified in C. apply andb_prop in C. destruct C as [C G]. apply andb_prop in C. destruct C as [C LP]. apply andb_prop in C. destruct C as [_ LB].
  apply Nat.leb_le in LB. apply negb_true_iff, Nat.eqb_neq in LP.
  destruct (run step (step_good cert) (c_pre cert) 0 (mat4_id (A := A))) as [P|] eqn:R1; [|discriminate G].
  destruct (run step (step_good cert) (c_len cert) (c_pre cert) P) as [P'|] eqn:R2; [|discriminate G]. apply same_mat_eq in G. subst P'.
  apply (good_forever step (step_good cert) (c_pre cert) (c_len cert) (mat4_id (A := A)) P); [lia|exact R1|exact R2|]. intros m n k LM LN. unfold step_good.
  assert (TL : forall n, (c_pre cert <= n)%nat -> bound_at cert n = last (c_bounds cert) 0%Q).
  { clear - LB. intros n L. unfold bound_at. set (l := c_bounds cert) in *. clearbody l.
    destruct (exists_last_or l) as [->|(l' & x & ->)]; [destruct n; reflexivity|]. rewrite last_last. rewrite app_length in LB; simpl in LB.
    destruct (Nat.eq_dec n (List.length l')) as [->|NE]; [rewrite app_nth2, Nat.sub_diag by lia; reflexivity|]. apply nth_overflow. rewrite app_length; simpl. lia. }
  rewrite !TL by lia. reflexivity.
Qed.

(** *** One step in floating point *)
Definition P62 : R := 4611686018427387904.
Lemma const_Z : forall z, (Z.abs z < 2 ^ 53)%Z -> near64 (dofZ (Arith := A) z) (IZR z) 0.
Proof. intros z L. destruct (ofZ_64 z L) as [F E]. split; [exact F|]. change (Rabs (B2R (binary_normalize 53 1024 prec_gt_0_64 prec_lt_emax_64 mode_NE z 0 false) - IZR z) <= 0). rewrite E, Rminus_eq_0, Rabs_R0. lra. Qed.
Lemma const_0 : near64 (d0 (A := A)) 0 u53.
Proof. eapply near64_le; [exact (const_Z 0 ltac:(reflexivity))|unfold u53; lra]. Qed.
Lemma const_1 : near64 (d1 (A := A)) 1 u53.
Proof. eapply near64_le; [exact (const_Z 1 ltac:(reflexivity))|unfold u53; lra]. Qed.
Lemma const_div : forall z, (1 < z < 2 ^ 53)%Z -> near64 (ddiv (Arith := A) (dofZ (Arith := A) 1) (dofZ (Arith := A) z)) (/ IZR z) u53.
Proof.
  intros z L. destruct (ofZ_64 1 eq_refl) as [F1 E1]. destruct (ofZ_64 z ltac:(lia)) as [F2 E2].
  set (x := binary_normalize 53 1024 prec_gt_0_64 prec_lt_emax_64 mode_NE 1 0 false) in *. set (y := binary_normalize 53 1024 prec_gt_0_64 prec_lt_emax_64 mode_NE z 0 false) in *.
  assert (P : 2 <= IZR z) by (apply IZR_le; lia). assert (Q : 0 < / IZR z) by (apply Rinv_0_lt_compat; lra). assert (Q' : / IZR z <= / 2) by (apply Rinv_le_contravar; lra).
  assert (S : Rabs (B2R x / B2R y) <= P65) by (rewrite E1, E2; unfold Rdiv; rewrite Rmult_1_l, Rabs_pos_eq by lra; unfold P65; lra).
  assert (NZ : B2R y <> 0) by (rewrite E2; lra).
  destruct (div_fin 53 1024 _ _ x y F1 NZ (proj1 (round_65 _ S))) as [F E]. split; [exact F|].
  change (Rabs (B2R (Bdiv mode_NE x y) - / IZR z) <= u53). rewrite E. replace (B2R x / B2R y) with (/ IZR z) by (rewrite E1, E2; unfold Rdiv; ring).
  eapply Rle_trans; [apply r64_error|]. rewrite Rabs_pos_eq by lra. pose proof eta_small. unfold u53 in *. lra.
Qed.
Lemma const_half : near64 (dhalf (A := A)) (/ 2) u53. Proof. exact (const_div 2 ltac:(split; reflexivity)). Qed.
Lemma const_sixth : near64 (dsixth (A := A)) (/ 6) u53. Proof. exact (const_div 6 ltac:(split; reflexivity)). Qed.

Lemma product : forall (x c : float64) r, is_finite x = true -> Rabs (B2R x) <= P62 -> near64 c r u53 -> Rabs r <= 1 ->
  near64 (dmul (Arith := A) x c) (B2R x * r) 8704 /\ near64 (dmul (Arith := A) c x) (r * B2R x) 8704.
Proof.
  intros x c r FX BX C R1. unfold P62 in *. assert (U : 0 <= u53 <= 1) by (unfold u53; lra). pose proof (Rabs_pos (B2R x)). split.
  - eapply near64_le; [apply (near64_mul x c (B2R x) 0 r u53 2 (near64_exact x FX) C); try lra; unfold P65; lra|].
    assert (Rabs (B2R x) * u53 <= 4611686018427387904 * u53) by (apply Rmult_le_compat_r; lra). unfold u53 in *. lra.
  - eapply near64_le; [apply (near64_mul c x r u53 (B2R x) 0 4611686018427387904 C (near64_exact x FX)); try lra; unfold P65|].
    + apply Rle_trans with (2 * 4611686018427387904); [apply Rmult_le_compat_r; lra|lra].
    + unfold u53. lra.
Qed.
Lemma four : forall (a b c d : float64) ra rb rc rd, near64 a ra 8704 -> near64 b rb 8704 -> near64 c rc 8704 -> near64 d rd 8704 ->
  Rabs ra <= P62 -> Rabs rb <= P62 -> Rabs rc <= P62 -> Rabs rd <= P62 ->
  near64 (dadd (Arith := A) (dadd (Arith := A) (dadd (Arith := A) (dadd (Arith := A) (d0 (A := A)) a) b) c) d) (ra + rb + rc + rd) 131072.
Proof.
  intros a b c d ra rb rc rd NA NB NC ND RA RB RC RD. unfold P62 in *.
  pose proof (const_Z 0 eq_refl) as N0.
  pose proof (near64_add _ _ _ _ _ _ N0 NA ltac:(rewrite Rabs_R0; unfold P65; lra)) as N1. rewrite Rplus_0_l in N1.
  pose proof (near64_add _ _ _ _ _ _ N1 NB ltac:(unfold P65; lra)) as N2.
  pose proof (Rabs_triang ra rb) as T1.
  pose proof (near64_add _ _ _ _ _ _ N2 NC ltac:(unfold P65; lra)) as N3.
  pose proof (Rabs_triang (ra + rb) rc) as T2.
  pose proof (near64_add _ _ _ _ _ _ N3 ND ltac:(unfold P65; lra)) as N4.
  eapply near64_le; [exact N4|lra].
Qed.
Definition vec_le64 (m : R) (x : Vec4 (A := A)) : Prop :=
  (is_finite (q0 x) = true /\ Rabs (B2R (q0 x)) <= m) /\ (is_finite (q1 x) = true /\ Rabs (B2R (q1 x)) <= m) /\
  (is_finite (q2 x) = true /\ Rabs (B2R (q2 x)) <= m) /\ (is_finite (q3 x) = true /\ Rabs (B2R (q3 x)) <= m).
Lemma times_le : forall x r m, Rabs x <= m -> Rabs r <= 1 -> Rabs (x * r) <= m /\ Rabs (r * x) <= m.
Proof.
  intros x r m X R1. pose proof (Rabs_pos x). pose proof (Rabs_pos r). rewrite !Rabs_mult.
  assert (Rabs x * Rabs r <= Rabs x * 1) by (apply Rmult_le_compat_l; lra). lra.
Qed.
Lemma dot_near : forall (x c : Vec4 (A := A)) r0 r1 r2 r3, vec_le64 P62 x ->
  near64 (q0 c) r0 u53 -> near64 (q1 c) r1 u53 -> near64 (q2 c) r2 u53 -> near64 (q3 c) r3 u53 ->
  Rabs r0 <= 1 -> Rabs r1 <= 1 -> Rabs r2 <= 1 -> Rabs r3 <= 1 ->
  near64 (dot4 (A := A) x c) (B2R (q0 x) * r0 + B2R (q1 x) * r1 + B2R (q2 x) * r2 + B2R (q3 x) * r3) 131072 /\
  near64 (dot4 (A := A) c x) (r0 * B2R (q0 x) + r1 * B2R (q1 x) + r2 * B2R (q2 x) + r3 * B2R (q3 x)) 131072.
Proof.
  intros x c r0 r1 r2 r3 ([F0 B0] & [F1 B1] & [F2 B2] & [F3 B3]) C0 C1 C2 C3 R0 R1 R2 R3.
  destruct (product _ _ _ F0 B0 C0 R0) as [L0 M0]. destruct (product _ _ _ F1 B1 C1 R1) as [L1 M1].
  destruct (product _ _ _ F2 B2 C2 R2) as [L2 M2]. destruct (product _ _ _ F3 B3 C3 R3) as [L3 M3].
  destruct (times_le _ _ _ B0 R0). destruct (times_le _ _ _ B1 R1). destruct (times_le _ _ _ B2 R2). destruct (times_le _ _ _ B3 R3).
  split; apply four; assumption.
Qed.
Definition P60 : R := 1152921504606846976.
Definition P55 : R := 36028797018963968.
Definition P30 : R := 1073741824.
(** The new estimate is the exact one up to 2^22. *)
Lemma filter_arith : forall (x g : Vec4 (A := A)) (z : float64),
  vec_le64 P60 x -> is_finite z = true -> Rabs (B2R z) <= P30 -> vec_le64 8 g ->
  let x0 := B2R (q0 x) in let x1 := B2R (q1 x) in let x2 := B2R (q2 x) in let x3 := B2R (q3 x) in
  let t0 := x0 + x1 + x2 / 2 + x3 / 6 in let t1 := x1 + x2 + x3 / 2 in let t2 := x2 + x3 in let y := B2R z - t0 in
  let s := let p := mat4_vec (A := A) (kf_transition (A := A)) x in vec4_add (A := A) p (vec4_scale (A := A) g (dsub (Arith := A) z (dot4 (A := A) (kf_measure (A := A)) p))) in
  near64 (q0 s) (t0 + B2R (q0 g) * y) 4194304 /\ near64 (q1 s) (t1 + B2R (q1 g) * y) 4194304 /\
  near64 (q2 s) (t2 + B2R (q2 g) * y) 4194304 /\ near64 (q3 s) (x3 + B2R (q3 g) * y) 4194304.
Proof.
  intros x g z BX FZ BZ BG x0 x1 x2 x3 t0 t1 t2 y s.
  assert (BX2 : vec_le64 P62 x).
  { destruct BX as ([F0 B0] & [F1 B1] & [F2 B2] & [F3 B3]). unfold vec_le64, P60, P62 in *. repeat split; try assumption; lra. }
  assert (A0 : Rabs 0 <= 1) by (rewrite Rabs_R0; lra). assert (A1 : Rabs 1 <= 1) by (rewrite Rabs_R1; lra).
  assert (A2 : Rabs (/ 2) <= 1) by (rewrite Rabs_pos_eq; lra). assert (A6 : Rabs (/ 6) <= 1) by (rewrite Rabs_pos_eq; lra).
  set (p := mat4_vec (A := A) (kf_transition (A := A)) x).
  assert (N0 : near64 (q0 p) t0 131072).
  { destruct (dot_near x (row0 (kf_transition (A := A))) 1 1 (/ 2) (/ 6) BX2 const_1 const_1 const_half const_sixth A1 A1 A2 A6) as [H _].
    replace t0 with (B2R (q0 x) * 1 + B2R (q1 x) * 1 + B2R (q2 x) * / 2 + B2R (q3 x) * / 6) by (unfold t0, x0, x1, x2, x3; field). exact H. }
  assert (N1 : near64 (q1 p) t1 131072).
  { destruct (dot_near x (row1 (kf_transition (A := A))) 0 1 1 (/ 2) BX2 const_0 const_1 const_1 const_half A0 A1 A1 A2) as [H _].
    replace t1 with (B2R (q0 x) * 0 + B2R (q1 x) * 1 + B2R (q2 x) * 1 + B2R (q3 x) * / 2) by (unfold t1, x1, x2, x3; field). exact H. }
  assert (N2 : near64 (q2 p) t2 131072).
  { destruct (dot_near x (row2 (kf_transition (A := A))) 0 0 1 1 BX2 const_0 const_0 const_1 const_1 A0 A0 A1 A1) as [H _].
    replace t2 with (B2R (q0 x) * 0 + B2R (q1 x) * 0 + B2R (q2 x) * 1 + B2R (q3 x) * 1) by (unfold t2, x2, x3; ring). exact H. }
  assert (N3 : near64 (q3 p) x3 131072).
  { destruct (dot_near x (row3 (kf_transition (A := A))) 0 0 0 1 BX2 const_0 const_0 const_0 const_1 A0 A0 A0 A1) as [H _].
    replace x3 with (B2R (q0 x) * 0 + B2R (q1 x) * 0 + B2R (q2 x) * 0 + B2R (q3 x) * 1) by (unfold x3; ring). exact H. }
  destruct BX as ([F0 B0] & [F1 B1] & [F2 B2] & [F3 B3]). fold x0 in B0. fold x1 in B1. fold x2 in B2. fold x3 in B3.
  assert (T0 : Rabs t0 <= 3 * P60).
  { unfold t0. apply Rabs_le. apply Rabs_le_inv in B0. apply Rabs_le_inv in B1. apply Rabs_le_inv in B2. apply Rabs_le_inv in B3. lra. }
  assert (T1 : Rabs t1 <= 3 * P60) by (unfold t1; apply Rabs_le; apply Rabs_le_inv in B1; apply Rabs_le_inv in B2; apply Rabs_le_inv in B3; lra).
  assert (T2 : Rabs t2 <= 3 * P60) by (unfold t2; apply Rabs_le; apply Rabs_le_inv in B2; apply Rabs_le_inv in B3; lra).
  assert (T3 : Rabs x3 <= 3 * P60) by (unfold P60 in *; lra).
  assert (BP : vec_le64 P62 p).
  { unfold vec_le64. repeat split; try (eapply proj1; eassumption); (eapply Rle_trans; [eapply near64_abs; eassumption|]; unfold P60, P62 in *; lra). }
  set (h := dot4 (A := A) (kf_measure (A := A)) p).
  assert (NH : near64 h t0 262144).
  { destruct (dot_near p (kf_measure (A := A)) 1 0 0 0 BP const_1 const_0 const_0 const_0 A1 A0 A0 A0) as [_ H]. fold h in H.
    eapply near64_le; [apply (near64_shift _ _ t0 _ 131072 H)|lra].
    replace (1 * B2R (q0 p) + 0 * B2R (q1 p) + 0 * B2R (q2 p) + 0 * B2R (q3 p) - t0) with (B2R (q0 p) - t0) by ring. exact (proj2 N0). }
  assert (NY : near64 (dsub (Arith := A) z h) y 270336).
  { eapply near64_le; [apply (near64_sub z h (B2R z) t0 0 262144 (near64_exact z FZ) NH); unfold P65, P60, P30 in *; lra|lra]. }
  assert (BY : Rabs y <= 7 / 2 * P60).
  { unfold y. unfold Rminus. eapply Rle_trans; [apply Rabs_triang|]. rewrite Rabs_Ropp. unfold P60, P30 in *. lra. }
  assert (K : forall (g : float64), is_finite g = true -> Rabs (B2R g) <= 8 -> forall (q : float64) t, near64 q t 131072 -> Rabs t <= 3 * P60 ->
    near64 (dadd (Arith := A) q (dmul (Arith := A) g (dsub (Arith := A) z h))) (t + B2R g * y) 4194304).
  { clear g BG s. intros g FG G8 q t NQ BT.
    assert (NM : near64 (dmul (Arith := A) g (dsub (Arith := A) z h)) (B2R g * y) 2170880).
    { eapply near64_le; [apply (near64_mul g _ (B2R g) 0 y 270336 (7 / 2 * P60 + 270336) (near64_exact g FG) NY); try lra; unfold P65, P60 in *|].
      - apply Rle_trans with (8 * (7 / 2 * 1152921504606846976 + 270336)); [apply Rmult_le_compat_r; lra|lra].
      - assert (Rabs (B2R g) * 270336 <= 8 * 270336) by (apply Rmult_le_compat_r; lra). lra. }
    eapply near64_le; [apply (near64_add _ _ _ _ _ _ NQ NM)|lra].
    assert (Rabs (B2R g * y) <= 8 * (7 / 2 * P60)) by (rewrite Rabs_mult; apply Rmult_le_compat; try apply Rabs_pos; assumption). unfold P65, P60 in *. lra. }
  destruct BG as ([G0 S0] & [G1 S1] & [G2 S2] & [G3 S3]).
  unfold s. cbn zeta. fold p. fold h. unfold vec4_add, vec4_scale, vec4_map2, vec4_map. cbn [q0 q1 q2 q3]. clearbody h.
  split; [|split; [|split]].
  - exact (K (q0 g) G0 S0 (q0 p) t0 N0 T0).
  - exact (K (q1 g) G1 S1 (q1 p) t1 N1 T1).
  - exact (K (q2 g) G2 S2 (q2 p) t2 N2 T2).
  - exact (K (q3 g) G3 S3 (q3 p) x3 N3 T3).
Qed.
Lemma gain_le : forall g, vec_finite g = true -> gain_size (vec_Q g) = true ->
  vec_le64 8 g /\ Q2R (a0 (vec_Q g)) = B2R (q0 g) /\ Q2R (a1 (vec_Q g)) = B2R (q1 g) /\ Q2R (a2 (vec_Q g)) = B2R (q2 g) /\ Q2R (a3 (vec_Q g)) = B2R (q3 g).
Proof.
  intros [g0 g1 g2 g3] GF GS. unfold vec_finite, gain_size, vec_Q, vec_le64 in *. cbn [a0 a1 a2 a3 q0 q1 q2 q3] in *.
  apply andb_prop in GF. destruct GF as [GF G3]. apply andb_prop in GF. destruct GF as [GF G2]. apply andb_prop in GF. destruct GF as [G0 G1].
  apply andb_prop in GS. destruct GS as [GS S3]. apply andb_prop in GS. destruct GS as [GS S2]. apply andb_prop in GS. destruct GS as [S0 S1].
  apply Qle_bool_R in S0. apply Qle_bool_R in S1. apply Qle_bool_R in S2. apply Qle_bool_R in S3. rewrite Q2R_abs in S0, S1, S2, S3.
  rewrite to_Q_ok in S0, S1, S2, S3 by assumption. rewrite !to_Q_ok by assumption.
  assert (E8 : Q2R 8 = 8) by (unfold Q2R; simpl; lra). rewrite E8 in *. repeat split; assumption.
Qed.
(** ** The estimate stays bounded *)
Definition rows_le (cert : certificate) (b : Q) (x : Vec4 (A := A)) : Prop :=
  Forall (fun s => Rabs (lin s (B2R (q0 x)) (B2R (q1 x)) (B2R (q2 x)) (B2R (q3 x))) <= Q2R b * P30) (c_rows cert).
Definition vec_finite64 (x : Vec4 (A := A)) : Prop := is_finite (q0 x) = true /\ is_finite (q1 x) = true /\ is_finite (q2 x) = true /\ is_finite (q3 x) = true.
Lemma bound_ok : forall cert n, static_ok cert = true -> 0 <= Q2R (bound_at cert n) /\ Q2R (c_w cert) * Q2R (bound_at cert n) <= 33554432.
Proof.
  intros cert n S. unfold static_ok in S. repeat (apply andb_prop in S; destruct S as [S ?]).
  match goal with X : forallb _ (c_bounds cert) = true |- _ => rename X into FB end.
  match goal with X : negb _ = true |- _ => rename X into NE end. apply negb_true_iff, Nat.eqb_neq in NE.
  assert (I : In (bound_at cert n) (c_bounds cert)).
  { unfold bound_at. destruct (exists_last_or (c_bounds cert)) as [E|(l' & x & E)]; [rewrite E in NE; destruct NE; reflexivity|]. rewrite E, last_last.
    destruct (nth_in_or_default n (l' ++ [x]) x) as [I|I]; [exact I|]. rewrite I. apply in_or_app. right. left. reflexivity. }
  rewrite forallb_forall in FB. specialize (FB _ I). apply andb_prop in FB. destruct FB as [B0 B1]. apply Qle_bool_R in B0. apply Qle_bool_R in B1.
  rewrite Q2R_0' in B0. rewrite Q2R_mult in B1. replace (Q2R 33554432) with 33554432 in B1 by (unfold Q2R; simpl; lra). split; assumption.
Qed.
Lemma rows_components : forall cert n x, static_ok cert = true -> vec_finite64 x -> rows_le cert (bound_at cert n) x -> vec_le64 P55 x.
Proof.
  intros cert n x S (F0 & F1 & F2 & F3) H. destruct (bound_ok cert n S) as [B0 B1].
  destruct (components _ _ _ _ cert (Q2R (bound_at cert n) * P30) S ltac:(apply Rmult_le_pos; [exact B0|unfold P30; lra]) H) as (X0 & X1 & X2 & X3).
  assert (E : Q2R (c_w cert) * (Q2R (bound_at cert n) * P30) <= P55).
  { rewrite <- Rmult_assoc. apply Rle_trans with (33554432 * P30); [apply Rmult_le_compat_r; [unfold P30; lra|exact B1]|unfold P30, P55; lra]. }
  unfold vec_le64. repeat split; try assumption; lra.
Qed.
Lemma rows_step : forall cert k b b' x0 x1 x2 x3 z y0 y1 y2 y3, static_ok cert = true ->
  forallb (fun r => Qle_bool (row_bound cert k b r) b') (c_full cert) = true -> 0 <= Q2R b ->
  Forall (fun s => Rabs (lin s x0 x1 x2 x3) <= Q2R b * P30) (c_rows cert) -> Rabs z <= P30 ->
  let t0 := x0 + x1 + x2 / 2 + x3 / 6 in let t1 := x1 + x2 + x3 / 2 in let t2 := x2 + x3 in let i := z - t0 in
  Rabs (y0 - (t0 + Q2R (a0 k) * i)) <= 4194304 -> Rabs (y1 - (t1 + Q2R (a1 k) * i)) <= 4194304 ->
  Rabs (y2 - (t2 + Q2R (a2 k) * i)) <= 4194304 -> Rabs (y3 - (x3 + Q2R (a3 k) * i)) <= 4194304 ->
  Forall (fun s => Rabs (lin s y0 y1 y2 y3) <= Q2R b' * P30) (c_rows cert).
Proof.
  intros cert k b b' x0 x1 x2 x3 z y0 y1 y2 y3 S GR B0 RW BZ t0 t1 t2 i N0 N1 N2 N3.
  apply Forall_forall. intros s IS. unfold c_rows in IS. apply in_map_iff in IS. destruct IS as (r & <- & IS). rewrite forallb_forall in GR. pose proof (GR r IS) as Q. apply Qle_bool_R in Q.
  eapply Rle_trans; [|apply Rmult_le_compat_r; [unfold P30; lra|exact Q]].
  assert (EO : P30 / 256 = 4194304) by (unfold P30; field). rewrite <- EO in *.
  pose proof (row_step cert k b r x0 x1 x2 x3 z _ _ _ _ P30 S ltac:(unfold P30; lra) IS B0 RW BZ N0 N1 N2 N3) as H. cbn zeta in H. fold t0 t1 t2 i in H.
  replace (t0 + Q2R (a0 k) * i + (y0 - (t0 + Q2R (a0 k) * i))) with y0 in H by ring. replace (t1 + Q2R (a1 k) * i + (y1 - (t1 + Q2R (a1 k) * i))) with y1 in H by ring.
  replace (t2 + Q2R (a2 k) * i + (y2 - (t2 + Q2R (a2 k) * i))) with y2 in H by ring. replace (x3 + Q2R (a3 k) * i + (y3 - (x3 + Q2R (a3 k) * i))) with y3 in H by ring.
  exact H.
Qed.
(** A filter after [n] corrections. *)
Record kept_small (cert : certificate) (f : KFilter (A := A)) : Prop := mk_kept {
  ks_iter : (0 <= kf_iter f)%Z;
  ks_fresh : kf_iter f = 0%Z -> f = kf_reset (A := A);
  ks_cov : (1 <= kf_iter f)%Z -> kf_cov f = cov_at (Z.to_nat (kf_iter f - 1));
  ks_fin : vec_finite64 (kf_state f);
  ks_rows : (1 <= kf_iter f)%Z -> rows_le cert (bound_at cert (Z.to_nat (kf_iter f - 1))) (kf_state f)
}.
Lemma zero_fin : is_finite (d0 (A := A)) = true /\ B2R (d0 (A := A)) = 0.
Proof. exact (ofZ_64 0 eq_refl). Qed.
Lemma kept_reset : forall cert, kept_small cert (kf_reset (A := A)).
Proof.
  intros cert. destruct zero_fin as [F E]. split; cbn [kf_reset kf_iter kf_state]; try lia; [reflexivity|]. unfold vec_finite64, vec4_zero; cbn [q0 q1 q2 q3]. repeat split; exact F.
Qed.
Lemma static_of : forall cert, certified cert = true -> static_ok cert = true.
Proof. intros cert C. unfold certified in C. do 3 (apply andb_prop in C; destruct C as [C _]). exact C. Qed.
Lemma kept_first : forall cert f z f', certified cert = true -> kept_small cert f -> is_finite z = true -> Rabs (B2R z) <= P30 -> kf_iter f = 0%Z ->
  f' = mkKF (mkVec4 z (q1 (kf_state f)) (q2 (kf_state f)) (q3 (kf_state f))) (kf_cov f) (kf_iter f + 1) -> kept_small cert f'.
Proof.
  intros cert f z f' C [I0 FR CV FN RW] FZ BZ E H. pose proof (static_of cert C) as S.
  rewrite (FR E) in H. cbn [kf_reset kf_iter kf_state kf_cov vec4_zero q0 q1 q2 q3] in H. subst f'. destruct zero_fin as [F0 E0].
  split; cbn [kf_iter kf_state kf_cov]; try lia; [intros _; reflexivity|unfold vec_finite64; cbn [q0 q1 q2 q3]; repeat split; try exact F0; exact FZ|].
  intros _. change (Z.to_nat (0 + 1 - 1)) with 0%nat. unfold rows_le. apply Forall_forall. intros s IS. cbn [q0 q1 q2 q3]. rewrite E0.
  unfold lin. rewrite !Rmult_0_r, !Rplus_0_r, Rabs_mult.
  unfold static_ok in S. apply andb_prop in S. destruct S as [_ S]. rewrite forallb_forall in S. specialize (S s IS). apply Qle_bool_R in S. rewrite Q2R_abs in S.
  apply Rmult_le_compat; try apply Rabs_pos; assumption.
Qed.
Lemma kept_next : forall cert f z f', certified cert = true -> kept_small cert f -> is_finite z = true -> Rabs (B2R z) <= P30 -> kf_iter f <> 0%Z ->
  kf_iter f' = (kf_iter f + 1)%Z -> kf_cov f' = next step (kf_cov f) ->
  kf_state f' = (let p := mat4_vec (A := A) (kf_transition (A := A)) (kf_state f) in vec4_add (A := A) p (vec4_scale (A := A) (output step (kf_cov f)) (dsub (Arith := A) z (dot4 (A := A) (kf_measure (A := A)) p)))) ->
  kept_small cert f'.
Proof.
  intros cert f z f' C [I0 FR CV FN RW] FZ BZ NE EI EC ES. pose proof (static_of cert C) as S.
  assert (P : (1 <= kf_iter f)%Z) by lia. specialize (CV P). specialize (RW P). set (n := Z.to_nat (kf_iter f - 1)) in *.
  pose proof (all_steps cert C n) as G. unfold step_good in G. apply andb_prop in G. destruct G as [GF G]. unfold step_within in G. apply andb_prop in G. destruct G as [GS GR].
  assert (BX : vec_le64 P60 (kf_state f)).
  { destruct (rows_components cert n _ S FN RW) as ([K0 L0] & [K1 L1] & [K2 L2] & [K3 L3]). unfold vec_le64, P55, P60 in *. repeat split; try assumption; lra. }
  rewrite CV in *.
  destruct (gain_le (output step (cov_at n)) GF GS) as (BG & E0 & E1 & E2 & E3).
  destruct (filter_arith (kf_state f) (output step (cov_at n)) z BX FZ BZ BG) as (N0 & N1 & N2 & N3). rewrite <- E0 in N0. rewrite <- E1 in N1. rewrite <- E2 in N2. rewrite <- E3 in N3.
  assert (EN : Z.to_nat (kf_iter f' - 1) = Datatypes.S n) by (rewrite EI; unfold n; lia).
  rewrite <- ES in N0, N1, N2, N3.
  split; rewrite ?EN; try lia.
  - intros _. rewrite EC. unfold cov_at. rewrite iterate_S. reflexivity.
  - exact (conj (proj1 N0) (conj (proj1 N1) (conj (proj1 N2) (proj1 N3)))).
  - intros _. unfold rows_le. eapply rows_step; [exact S|exact GR|apply bound_ok; exact S|exact RW|exact BZ|exact (proj2 N0)|exact (proj2 N1)|exact (proj2 N2)|exact (proj2 N3)].
Qed.
(** The estimates the predictor reads are below 2^55. *)
Lemma kept_le : forall cert f, certified cert = true -> kept_small cert f -> vec_le64 P55 (kf_state f).
Proof.
  intros cert f C [I0 FR CV FN RW].
  pose proof (static_of cert C) as S.
  destruct (Z.eqb_spec (kf_iter f) 0) as [E|NE]; [|apply (rows_components cert _ _ S FN (RW ltac:(lia)))].
  rewrite (FR E). destruct zero_fin as [F0 E0]. unfold vec_le64, kf_reset, vec4_zero; cbn [kf_state q0 q1 q2 q3]. rewrite E0, Rabs_R0. unfold P55. repeat split; try exact F0; lra.
Qed.
End Filtering.

(** ** Certified noise parameters *)
Definition filter_certified acosf (pn mn : float64) (cert : certificate) : bool :=
  certified acosf (cov_step (A := ieee acosf) pn mn) cert.
Definition filter_small acosf (pn mn : float64) (cert : certificate) (f : KFilter (A := ieee acosf)) : Prop :=
  kept_small acosf (cov_step (A := ieee acosf) pn mn) cert f.
Lemma filter_reset_small : forall acosf pn mn cert, filter_small acosf pn mn cert (kf_reset (A := ieee acosf)).
Proof. intros acosf pn mn cert. apply kept_reset. Qed.
Lemma filter_update_small : forall acosf pn mn cert f z f', filter_certified acosf pn mn cert = true -> filter_small acosf pn mn cert f ->
  is_finite z = true -> Rabs (B2R z) <= P30 -> kf_update (A := ieee acosf) pn mn f z = Ret f' -> filter_small acosf pn mn cert f'.
Proof.
  intros acosf pn mn cert f z f' C K FZ BZ H. unfold filter_certified, filter_small in *. destruct (Z.eq_dec (kf_iter f) 0) as [E|NE].
  - pose proof (update_first (A := ieee acosf) pn mn f z f' H E) as U. exact (kept_first acosf _ cert f z f' C K FZ BZ E U).
  - destruct (update_next (A := ieee acosf) pn mn f z f' H NE) as (EI & EC & ES). exact (kept_next acosf _ cert f z f' C K FZ BZ NE EI EC ES).
Qed.
Lemma filter_small_le : forall acosf pn mn cert f, filter_certified acosf pn mn cert = true -> filter_small acosf pn mn cert f -> vec_le64 acosf P55 (kf_state f).
Proof. intros acosf pn mn cert f C K. exact (kept_le acosf _ cert f C K). Qed.
