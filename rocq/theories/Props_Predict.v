(** * C40, C41, C42: the Kalman filter and the predictions made with it (exact
      arithmetic). *)
From Coq Require Import ZArith Bool List Sorted Reals Lra Lia Psatz.
From Flocq Require Import Core.Raux.
From Verif Require Export Props_Loop.
Import ListNotations.
Open Scope R_scope.

(** ** Specification: the textbook Kalman filter
    of a coordinate that moves with constant jerk, one unit of time per
    observation: position, velocity, acceleration and jerk, numbered 0 to 3. *)
Record gaussian : Type := mkGauss { mean : nat -> R; cov : nat -> nat -> R }.
Definition sum4 (f : nat -> R) : R := f 0%nat + f 1%nat + f 2%nat + f 3%nat.
(** The transition matrix: Taylor's formula. *)
Definition taylor (i j : nat) : R := if Nat.leb i j then / INR (fact (j - i)) else 0.
(** How an unknown change of the jerk influences the next state. *)
Definition noise_gain (i : nat) : R := / INR (fact (3 - i)).
Definition propagate (q : R) (g : gaussian) : gaussian :=
  mkGauss (fun i => sum4 (fun k => taylor i k * mean g k))
          (fun i j => sum4 (fun k => sum4 (fun l => taylor i k * cov g k l * taylor j l)) + q * (noise_gain i * noise_gain j)).
(** The position is observed with variance [r]. *)
Definition innovation (r : R) (g : gaussian) : R := cov g 0%nat 0%nat + r.
Definition observe (r : R) (g : gaussian) (z : R) : gaussian :=
  let gain i := cov g i 0%nat / innovation r g in
  mkGauss (fun i => mean g i + gain i * (z - mean g 0%nat))
          (fun i j => cov g i j - gain i * cov g 0%nat j).
Definition first_guess (z : R) : gaussian :=
  mkGauss (fun i => if Nat.eqb i 0 then z else 0) (fun i j => if Nat.eqb i j then 1 else 0).
(** The estimate after the observations [zs]. *)
Definition kalman (q r : R) (zs : list R) : gaussian :=
  match zs with
  | [] => first_guess 0
  | z :: zs' => fold_left (fun g z => observe r (propagate q g) z) zs' (first_guess z)
  end.

(** Symmetric and positive semidefinite. *)
Definition quad (c : nat -> nat -> R) (w : nat -> R) : R := sum4 (fun i => sum4 (fun j => w i * c i j * w j)).
Definition covariance (c : nat -> nat -> R) : Prop :=
  (forall i j, (i < 4)%nat -> (j < 4)%nat -> c i j = c j i) /\ (forall w, 0 <= quad c w).

(** ** Specification: the prediction *)
(** Position, velocity, acceleration and jerk estimated from the points [pts] (the
    inputs with their smoothed positions); the unit of time of the filter is the
    mean time step of the most recent points. *)
Definition estimate (kp : KalmanParams) (pts : list point) : KEst :=
  let x := kalman (kp_process kp) (kp_measure kp) (map (fun a => vx (snd a)) pts) in
  let y := kalman (kp_process kp) (kp_measure kp) (map (fun a => vy (snd a)) pts) in
  let ts := most_recent (kp_max_times kp) (map (fun a => i_time (fst a)) pts) in
  let dt := (last ts 0 - hd 0 ts) / INR (List.length ts) in
  let wa := kp_acc_weight kp in let wj := kp_jerk_weight kp in
  mkKEst (mkVec2 (mean x 0) (mean y 0)) (mkVec2 (mean x 1 / dt) (mean y 1 / dt))
         (mkVec2 (wa * (mean x 2 / dt ^ 2)) (wa * (mean y 2 / dt ^ 2)))
         (mkVec2 (wj * (mean x 3 / dt ^ 3)) (wj * (mean y 3 / dt ^ 3))).

(** Motions of a coordinate with constant jerk. *)
Record cubic : Type := mkCubic { cub0 : R; cub1 : R; cub2 : R; cub3 : R }.
Definition value (c : cubic) (t : R) : R := cub0 c + cub1 c * t + cub2 c * t ^ 2 + cub3 c * t ^ 3.
Definition slope (c : cubic) (t : R) : R := cub1 c + 2 * cub2 c * t + 3 * cub3 c * t ^ 2.
Definition bend (c : cubic) (t : R) : R := 2 * cub2 c + 6 * cub3 c * t.
Definition on_curve (cx cy : cubic) (t : R) (r : Result) : Prop :=
  r_pos r = mkVec2 (value cx t) (value cy t) /\ r_vel r = mkVec2 (slope cx t) (slope cy t) /\
  r_acc r = mkVec2 (bend cx t) (bend cy t).
(** From [a] with velocity [va] to [b] with velocity [vb] in time [d]. *)
Definition connects (c : cubic) (a va b vb d : R) : Prop :=
  value c 0 = a /\ slope c 0 = va /\ value c d = b /\ slope c d = vb.
(** The motion that continues the estimate. *)
Definition extends (cx cy : cubic) (e : KEst) : Prop :=
  mkVec2 (value cx 0) (value cy 0) = ke_pos e /\ mkVec2 (slope cx 0) (slope cy 0) = ke_vel e /\
  mkVec2 (bend cx 0) (bend cy 0) = ke_acc e /\ mkVec2 (6 * cub3 cx) (6 * cub3 cy) = ke_jerk e.

(** The number of steps to catch up: at the larger of the two speeds, but at least
    at [min_catchup_velocity].  ([fmaxval] is the largest float.) *)
Definition catch_up_steps (kp : KalmanParams) (rate : R) (z : Result) (e : KEst) : Z :=
  Z.max 1 (Zceil (Rmin (dist (r_pos z) (ke_pos e)) fmaxval /
    Rmax (Rmax (norm (r_vel z)) (norm (ke_vel e))) (kp_catchup kp) * rate)).
(** The confidence: number of points, distance of the last point to the estimate,
    speed of travel, straightness. *)
Definition confidence (kp : KalmanParams) (pts : list point) (q : Vec2) (e : KEst) : R :=
  let c := kp_conf kp in
  let t := kp_interval kp in
  let ends a v b j := a + v * t + b * t ^ 2 / 2 + j * t ^ 3 / 6 in
  let goal := mkVec2 (ends (vx (ke_pos e)) (vx (ke_vel e)) (vx (ke_acc e)) (vx (ke_jerk e)))
                     (ends (vy (ke_pos e)) (vy (ke_vel e)) (vy (ke_acc e)) (vy (ke_jerk e))) in
  let straight := mkVec2 (vx (ke_pos e) + vx (ke_vel e) * t) (vy (ke_pos e) + vy (ke_vel e) * t) in
  Rmin 1 (INR (List.length pts) / IZR (cp_samples c)) *
  (1 - ramp 0 (cp_max_dist c) (dist q (ke_pos e))) *
  ramp (cp_min_speed c) (cp_max_speed c) (dist (ke_pos e) goal / t) *
  (cp_baseline c + (1 - cp_baseline c) * (1 - ramp 0 (cp_max_dev c) (dist goal straight))).

(** [n1] results that catch up with the estimate, and [n2] results that extend it. *)
Definition predicted (rate : R) (z : Result) (e : KEst) (n1 n2 : nat) (out : list Result) : Prop :=
  exists cx cy ex ey,
    connects cx (vx (r_pos z)) (vx (r_vel z)) (vx (ke_pos e)) (vx (ke_vel e)) (INR n1 / rate) /\
    connects cy (vy (r_pos z)) (vy (r_vel z)) (vy (ke_pos e)) (vy (ke_vel e)) (INR n1 / rate) /\
    extends ex ey e /\ List.length out = (n1 + n2)%nat /\
    forall j r, nth_error out j = Some r -> r_time r = r_time z + INR (S j) / rate /\
      ((j < n1)%nat -> on_curve cx cy (INR (S j) / rate) r) /\
      ((n1 <= j)%nat -> on_curve ex ey (INR (S j - n1) / rate) r).

(** ** The filter *)
Lemma lt4 : forall i, (i < 4)%nat -> i = 0%nat \/ i = 1%nat \/ i = 2%nat \/ i = 3%nat.
Proof. intros i H. lia. Qed.
Ltac four i H := let E := fresh in destruct (lt4 i H) as [E|[E|[E|E]]]; subst i.

Lemma diag_ge0 : forall c, covariance c -> 0 <= c 0%nat 0%nat.
Proof.
  intros c [_ H]. specialize (H (fun i => if Nat.eqb i 0 then 1 else 0)). unfold quad, sum4 in H. cbn in H. lra.
Qed.
Lemma innovation_ge : forall r g, covariance (cov g) -> r <= innovation r g.
Proof. intros r g C. unfold innovation. pose proof (diag_ge0 _ C). lra. Qed.

Lemma covariance_first : forall z, covariance (cov (first_guess z)).
Proof.
  intros z. split.
  - intros i j _ _. cbn. rewrite Nat.eqb_sym. reflexivity.
  - intros w. unfold quad, sum4. cbn. nra.
Qed.
Lemma covariance_propagate : forall q g, 0 <= q -> covariance (cov g) -> covariance (cov (propagate q g)).
Proof.
  intros q g Q [C1 C2]. split.
  - intros i j I J. cbn [propagate cov]. f_equal; [|ring].
    unfold sum4. rewrite (C1 1 0)%nat, (C1 2 0)%nat, (C1 3 0)%nat, (C1 2 1)%nat, (C1 3 1)%nat, (C1 3 2)%nat by lia. ring.
  - intros w. set (u := fun k => sum4 (fun i => w i * taylor i k)).
    assert (E : quad (cov (propagate q g)) w = quad (cov g) u + q * (sum4 (fun i => w i * noise_gain i))²).
    { unfold quad, u, propagate, sum4, Rsqr. cbn [cov]. ring. }
    rewrite E. specialize (C2 u). pose proof (Rle_0_sqr (sum4 (fun i => w i * noise_gain i))). nra.
Qed.
Lemma covariance_observe : forall r g z, 0 < r -> covariance (cov g) -> covariance (cov (observe r g z)).
Proof.
  intros r g z P C. pose proof (innovation_ge r g C) as IG. destruct C as [C1 C2]. split.
  - intros i j I J. cbn [observe cov]. rewrite (C1 0%nat j), (C1 i 0%nat), (C1 i j) by lia. rewrite (C1 0%nat i) by lia. field. lra.
  - intros w. set (s := innovation r g) in *. set (k := sum4 (fun i => w i * cov g i 0%nat) / s).
    set (u := fun i => w i - if Nat.eqb i 0 then k else 0).
    assert (E : quad (cov (observe r g z)) w = quad (cov g) u + r * k²).
    { assert (R0 : r = s - cov g 0%nat 0%nat) by (unfold s, innovation; ring).
      unfold quad, u, k, observe, sum4, Rsqr. fold s. cbn [cov Nat.eqb]. assert (NZ : s <> 0) by lra. clearbody s. clear - R0 NZ C1.
      rewrite (C1 1 0)%nat, (C1 2 0)%nat, (C1 3 0)%nat by lia. rewrite R0. field. exact NZ. }
    rewrite E. specialize (C2 u). pose proof (Rle_0_sqr k). nra.
Qed.
Lemma covariance_kalman : forall q r zs, 0 <= q -> 0 < r -> covariance (cov (kalman q r zs)).
Proof.
  intros q r zs Q P. destruct zs as [|z zs]; [apply covariance_first|]. cbn [kalman].
  generalize (covariance_first z). generalize (first_guess z). induction zs as [|y zs IH]; intros g C; [exact C|].
  cbn [fold_left]. apply IH. apply covariance_observe; [exact P|]. apply covariance_propagate; assumption.
Qed.

Definition vget (v : Vec4) (i : nat) : R := match i with O => q0 v | 1%nat => q1 v | 2%nat => q2 v | _ => q3 v end.
Definition mget (m : Mat4) (i : nat) : Vec4 := match i with O => row0 m | 1%nat => row1 m | 2%nat => row2 m | _ => row3 m end.
Record agree (k : KFilter) (g : gaussian) : Prop := mkAgree {
  ag_mean : forall i, (i < 4)%nat -> vget (kf_state k) i = mean g i;
  ag_cov : forall i j, (i < 4)%nat -> (j < 4)%nat -> vget (mget (kf_cov k) i) j = cov g i j
}.

Lemma taylor_values : taylor 0 0 = 1 /\ taylor 0 1 = 1 /\ taylor 0 2 = 1 / 2 /\ taylor 0 3 = 1 / 6 /\
  taylor 1 0 = 0 /\ taylor 1 1 = 1 /\ taylor 1 2 = 1 /\ taylor 1 3 = 1 / 2 /\
  taylor 2 0 = 0 /\ taylor 2 1 = 0 /\ taylor 2 2 = 1 /\ taylor 2 3 = 1 /\
  taylor 3 0 = 0 /\ taylor 3 1 = 0 /\ taylor 3 2 = 0 /\ taylor 3 3 = 1.
Proof. unfold taylor. cbn. repeat split; lra. Qed.
Lemma gain_values : noise_gain 0 = 1 / 6 /\ noise_gain 1 = 1 / 2 /\ noise_gain 2 = 1 /\ noise_gain 3 = 1.
Proof. unfold noise_gain. cbn. repeat split; lra. Qed.

Lemma agree_predict : forall q k g, agree k g -> agree (kf_predict q k) (propagate q g).
Proof.
  intros q k g [M C]. destruct taylor_values as (T00 & T01 & T02 & T03 & T10 & T11 & T12 & T13 & T20 & T21 & T22 & T23 & T30 & T31 & T32 & T33).
  destruct gain_values as (G0 & G1 & G2 & G3). split.
  - intros i I. cbn [propagate mean]. unfold sum4. rewrite <- !M by lia. destruct k as [st cv it]. cbn [kf_state kf_predict].
    four i I; rewrite ?T00, ?T01, ?T02, ?T03, ?T10, ?T11, ?T12, ?T13, ?T20, ?T21, ?T22, ?T23, ?T30, ?T31, ?T32, ?T33;
      unfold mat4_vec, kf_transition, dot4, dhalf, dsixth, vget; cbn [q0 q1 q2 q3 row0 row1 row2 row3]; rsimp; lra.
  - intros i j I J. cbn [propagate cov]. unfold sum4. rewrite <- !C by lia. clear C M.
    destruct k as [st [[p00 p01 p02 p03] [p10 p11 p12 p13] [p20 p21 p22 p23] [p30 p31 p32 p33]] it].
    four i I; four j J; rewrite ?T00, ?T01, ?T02, ?T03, ?T10, ?T11, ?T12, ?T13, ?T20, ?T21, ?T22, ?T23, ?T30, ?T31, ?T32, ?T33, ?G0, ?G1, ?G2, ?G3;
      clear; cbv beta iota zeta delta [kf_predict mat4_add mat4_map2 vec4_map2 mat4_mul mat4_transpose kf_noise mat4_scale vec4_scale vec4_map outer4 kf_noise_vector kf_transition dot4 dhalf dsixth mget vget
        kf_cov q0 q1 q2 q3 row0 row1 row2 row3]; rsimp; field.
Qed.
Lemma agree_correct : forall r k g z, 0 < r -> covariance (cov g) -> agree k g -> agree (kf_correct r k z) (observe r g z).
Proof.
  intros r k g z P CV [M C]. pose proof (innovation_ge r g CV) as IG. destruct CV as [SY _].
  assert (S1 : kf_innovation_var r (kf_cov k) = innovation r g).
  { unfold kf_innovation_var, innovation, vec4_mat, mat4_vec, mat4_transpose, dot4, kf_measure. cbn [q0 q1 q2 q3 row0 row1 row2 row3].
    rewrite <- (C 0 0)%nat by lia. unfold vget, mget. rsimp. ring. }
  assert (NZ : innovation r g <> 0) by lra.
  assert (R0 : r = innovation r g - cov g 0%nat 0%nat) by (unfold innovation; ring).
  set (s := innovation r g) in *.
  assert (GE : forall i, (i < 4)%nat -> vget (vec4_div (vec4_mat kf_measure (kf_cov k)) s) i = cov g i 0%nat / s).
  { intros a IA. rewrite (SY a 0%nat) by lia. rewrite <- (C 0%nat a) by lia. clear - IA.
    destruct k as [st [[p00 p01 p02 p03] [p10 p11 p12 p13] [p20 p21 p22 p23] [p30 p31 p32 p33]] it].
    four a IA; cbv beta iota zeta delta [vec4_div vec4_map vec4_mat mat4_vec mat4_transpose dot4 kf_measure vget mget kf_cov q0 q1 q2 q3 row0 row1 row2 row3];
      rsimp; unfold Rdiv; ring. }
  split.
  - intros i I. cbn [observe mean]. fold s. rewrite <- !M, <- (GE i I) by lia. unfold kf_correct. rewrite S1. clear - I.
    destruct (vec4_div (vec4_mat kf_measure (kf_cov k)) s) as [g0 g1 g2 g3], k as [[m0 m1 m2 m3] cv it].
    four i I; cbv beta iota zeta delta [vec4_add vec4_map2 vec4_scale vec4_map dot4 kf_measure vget kf_state q0 q1 q2 q3]; rsimp; ring.
  - intros i j I J. cbn [observe cov]. fold s.
    rewrite <- (GE i I).
    assert (GS : cov g i 0%nat = vget (vec4_div (vec4_mat kf_measure (kf_cov k)) s) i * (cov g 0%nat 0%nat + r))
      by (rewrite (GE i I); fold s; unfold s, innovation in *; field; exact NZ).
    unfold kf_correct. rewrite S1. generalize dependent (vec4_div (vec4_mat kf_measure (kf_cov k)) s). intros G _ GS.
    rewrite <- !C in * by lia. cbv zeta. cbn [kf_cov].
    match goal with |- ?l = ?r0 => assert (X : l = r0 - vget G j * (vget (mget (kf_cov k) i) 0 - vget G i * (vget (mget (kf_cov k) 0) 0 + r))) end.
    { clear - I J. destruct G as [g0 g1 g2 g3], k as [st cv it]. cbn [kf_cov] in *.
      destruct cv as [[p00 p01 p02 p03] [p10 p11 p12 p13] [p20 p21 p22 p23] [p30 p31 p32 p33]].
      four i I; four j J;
      cbv beta iota zeta delta [mat4_add mat4_sub mat4_map2 mat4_mul mat4_scale outer4 mat4_id mat4_transpose vec4_add vec4_map2 vec4_scale vec4_map dot4 kf_measure vget mget kf_cov q0 q1 q2 q3 row0 row1 row2 row3];
      rsimp; ring. }
    rewrite X, GS. ring.
Qed.

Lemma agree_first : forall k z s, agree k (first_guess s) ->
  agree (mkKF (mkVec4 z (q1 (kf_state k)) (q2 (kf_state k)) (q3 (kf_state k))) (kf_cov k) (kf_iter k + 1)) (first_guess z).
Proof.
  intros k z s [M C]. split.
  - intros i I. specialize (M i I). four i I; cbn in *; auto.
  - intros i j I J. exact (C i j I J).
Qed.
Lemma agree_reset : agree kf_reset (first_guess 0).
Proof.
  split; [intros i I|intros i j I J].
  - four i I; reflexivity.
  - four i I; four j J; reflexivity.
Qed.

(** The filter after the observations [zs]. *)
Inductive filtering (q r : R) : list R -> KFilter -> Prop :=
| Fi_nil : filtering q r [] kf_reset
| Fi_more zs k z k' : filtering q r zs k -> kf_update q r k z = Ret k' -> filtering q r (zs ++ [z]) k'.

Lemma filtering_kalman : forall q r zs k, 0 <= q -> 0 < r -> filtering q r zs k ->
  agree k (kalman q r zs) /\ kf_iter k = Z.of_nat (List.length zs).
Proof.
  intros q r zs k Q P F. induction F as [|zs k z k' F [AG IT] U]; [split; [apply agree_reset|reflexivity]|].
  unfold kf_update in U. destruct (Z.leb INT_MAX (kf_iter k)); [discriminate U|].
  destruct (Z.eqb_spec (kf_iter k) 0) as [E|E].
  - injection U as <-. destruct zs as [|a zs]; [|cbn [List.length] in IT; lia]. cbn [app kalman fold_left] in *.
    split; [eapply agree_first; exact AG|]. cbn. lia.
  - injection U as <-. destruct zs as [|a zs]; [cbn in IT; lia|]. cbn [app kalman] in *. rewrite fold_left_app. cbn [fold_left].
    split.
    + apply agree_correct; [exact P| |].
      * apply covariance_propagate; [exact Q|]. exact (covariance_kalman q r (a :: zs) Q P).
      * apply agree_predict. destruct AG as [M C]. split; assumption.
    + cbn [kf_iter kf_correct kf_predict List.length]. rewrite app_length. cbn [List.length] in *. lia.
Qed.

(** ** C42 *)
(** After any observations the covariance of the filter is symmetric and positive
    semidefinite, it is the textbook one, and the next observation divides by at
    least the measurement noise. *)
Theorem C42_well_conditioned : forall (A := real_arith) q r zs k, 0 < q -> 0 < r -> filtering q r zs k ->
  agree k (kalman q r zs) /\ covariance (fun i j => vget (mget (kf_cov k) i) j) /\
  r <= kf_innovation_var r (kf_cov (kf_predict q k)).
Proof.
  intros A q r zs k Q P F. subst A. destruct (filtering_kalman q r zs k ltac:(lra) P F) as [AG _].
  pose proof (covariance_kalman q r zs ltac:(lra) P) as CV. split; [exact AG|].
  assert (CE : forall g k, agree k g -> covariance (cov g) -> covariance (fun i j => vget (mget (kf_cov k) i) j)).
  { intros g k0 [M C] [C1 C2]. split.
    - intros i j I J. rewrite !C by assumption. apply C1; assumption.
    - intros w. specialize (C2 w). unfold quad, sum4 in *. rewrite !C by lia. exact C2. }
  split; [exact (CE _ _ AG CV)|].
  pose proof (CE _ _ (agree_predict q k _ AG) (covariance_propagate q _ ltac:(lra) CV)) as C3.
  pose proof (diag_ge0 _ C3) as D0. cbv beta in D0. unfold vget, mget in D0.
  unfold kf_innovation_var. generalize dependent (kf_cov (kf_predict q k)). clear. intros c _ D0.
  destruct c as [[p00 p01 p02 p03] [p10 p11 p12 p13] [p20 p21 p22 p23] [p30 p31 p32 p33]].
  cbv beta iota zeta delta [vec4_mat mat4_vec mat4_transpose dot4 kf_measure q0 q1 q2 q3 row0 row1 row2 row3] in *. rsimp. lra.
Qed.

(** ** The predictor *)
Lemma recent_step : forall {X} (l : list X) x n, (0 < n)%Z ->
  most_recent n (l ++ [x]) = (let l' := most_recent n l ++ [x] in if (n <? 0)%Z || size_gt l' n then tl l' else l').
Proof.
  intros X l x n N. cbv zeta. unfold size_gt. rewrite (proj2 (Z.ltb_ge n 0)) by lia. cbn [orb].
  assert (LM : List.length (most_recent n l) = Nat.min (List.length l) (Z.to_nat n)) by (unfold most_recent; rewrite skipn_length; lia).
  rewrite app_length, LM. cbn [List.length].
  destruct (Z.ltb_spec n (Z.of_nat (Nat.min (List.length l) (Z.to_nat n) + 1))) as [L|L].
  - unfold most_recent. rewrite app_length. cbn [List.length].
    replace (List.length l + 1 - Z.to_nat n)%nat with (1 + (List.length l - Z.to_nat n))%nat by lia.
    rewrite <- skipn_add, skipn_snoc by lia. destruct (skipn (List.length l - Z.to_nat n) l); reflexivity.
  - unfold most_recent. rewrite app_length. cbn [List.length].
    replace (List.length l + 1 - Z.to_nat n)%nat with O by lia. replace (List.length l - Z.to_nat n)%nat with O by lia. reflexivity.
Qed.

Definition xs_of (pts : list point) : list R := map (fun a => vx (snd a)) pts.
Definition ys_of (pts : list point) : list R := map (fun a => vy (snd a)) pts.
Lemma predicting_kalman : forall p kp l pr, p_prediction p = PredKalman kp -> (0 < kp_max_times kp)%Z -> predicting p l pr ->
  exists k, pr = Some (PKal k) /\ k_params k = kp /\ k_sampling k = p_sampling p /\
    k_last k = option_map snd (back l) /\
    k_times k = most_recent (kp_max_times kp) (map (fun a => i_time (fst a)) l) /\
    filtering (kp_process kp) (kp_measure kp) (xs_of l) (k_x k) /\
    filtering (kp_process kp) (kp_measure kp) (ys_of l) (k_y k).
Proof.
  intros p kp l pr P MT H. induction H as [|l pr i c pr' H (k & -> & K1 & K2 & K3 & K4 & K5 & K6) U].
  - unfold make_predictor. rewrite P. eexists. split; [reflexivity|]. cbn. repeat (split; [reflexivity|]). split; apply Fi_nil.
  - cbn in U. unfold kpred_update in U. bind_inv U. bind_inv E. bind_inv E0. rename x0 into kx. rename x1 into k2. bind_inv E0. rename x0 into ky.
    injection E0 as <-. injection E as <-. injection U as <-. eexists. split; [reflexivity|]. cbn [k_params k_sampling k_last k_times k_x k_y].
    split; [exact K1|]. split; [exact K2|]. split; [rewrite back_snoc; reflexivity|]. split.
    + rewrite K1, K4, map_app. cbn [map fst]. rewrite recent_step by exact MT. reflexivity.
    + unfold xs_of, ys_of. rewrite !map_app. cbn [map snd]. rewrite K1 in *. split; eapply Fi_more; eauto.
Qed.

Lemma last_default : forall {X} (l : list X) d d', l <> [] -> last l d = last l d'.
Proof. intros X l d d' N. destruct (exists_last N) as (l' & x & ->). rewrite !last_last. reflexivity. Qed.

Lemma estimate_R : forall kp l k e, 0 <= kp_process kp -> 0 < kp_measure kp -> k_params k = kp ->
  k_times k = most_recent (kp_max_times kp) (map (fun a => i_time (fst a)) l) ->
  filtering (kp_process kp) (kp_measure kp) (xs_of l) (k_x k) ->
  filtering (kp_process kp) (kp_measure kp) (ys_of l) (k_y k) ->
  kpred_estimate k = Some e -> e = estimate kp l.
Proof.
  intros kp l k e Q P KP KT FX FY H. unfold kpred_estimate in H. destruct (kpred_stable k); [|discriminate H].
  destruct (k_times k) as [|front rest] eqn:T; [discriminate H|]. injection H as <-.
  destruct (filtering_kalman _ _ _ _ Q P FX) as [[MX _] _]. destruct (filtering_kalman _ _ _ _ Q P FY) as [[MY _] _].
  unfold estimate. fold (xs_of l). fold (ys_of l). rewrite <- KT.
  rewrite <- !MX, <- !MY by lia. unfold vget. rewrite (last_default (front :: rest) 0 front) by discriminate. cbn [hd].
  rewrite INR_IZR_INZ, KP. unfold vdiv, vscale_assign. cbn [vx vy]. rsimp.
  change (match rest with [] => front | _ :: _ => last rest front end) with (last (front :: rest) front).
  set (n := IZR _). set (d := (last (front :: rest) front - front) / n).
  assert (E2 : d * d = d ^ 2) by ring. assert (E3 : d * d * d = d ^ 3) by ring. rewrite E3, E2.
  f_equal; f_equal; ring.
Qed.

Lemma eval_eval : forall e a b, evaluate_cubic (A := real_arith) (evaluate_cubic (A := real_arith) e a) b = evaluate_cubic (A := real_arith) e (a + b).
Proof.
  intros [[px py] [ux uy] [ax ay] [jx jy]] a b. unfold evaluate_cubic, vadd, vscale, vdiv. cbn [ke_pos ke_vel ke_acc ke_jerk vx vy]. rsimp.
  f_equal; f_equal; field.
Qed.
Lemma prediction_nth : forall n e t dt j x, nth_error (cubic_prediction (A := real_arith) e t dt n) j = Some x ->
  let s := evaluate_cubic (A := real_arith) e (INR (S j) * dt) in
  x = mkTip (ke_pos s) (ke_vel s) (ke_acc s) (t + INR (S j) * dt).
Proof.
  induction n as [|n IH]; intros e t dt j x H; [destruct j; discriminate H|]. cbn [cubic_prediction] in H. destruct j as [|j].
  - cbn [nth_error] in H. injection H as <-. cbn [INR]. rewrite Rmult_1_l. reflexivity.
  - cbn [nth_error] in H. apply IH in H. cbv zeta in *. rewrite eval_eval in H. rewrite H. rsimp.
    assert (E : dt + INR (S j) * dt = INR (S (S j)) * dt) by (rewrite !S_INR; ring).
    rewrite E. f_equal. rewrite !S_INR. ring.
Qed.
Lemma prediction_length : forall n e t dt, List.length (cubic_prediction (A := real_arith) e t dt n) = n.
Proof. induction n as [|n IH]; intros; [reflexivity|]. cbn. rewrite IH. reflexivity. Qed.

Lemma rmaxs : forall a b : R, std_fmaxs (A := real_arith) a b = Rmax a b.
Proof. intros a b. unfold std_fmaxs. rsimp. unfold Rmax. destruct (Rltb a b) eqn:E; [apply Rltb_true in E|apply Rltb_false in E]; destruct (Rle_dec a b); lra. Qed.
Lemma rmax : forall a b : R, std_fmax (A := real_arith) a b = Rmax a b.
Proof. intros a b. apply rmaxs. Qed.
Lemma rmin : forall a b : R, std_fmin (A := real_arith) a b = Rmin a b.
Proof. intros a b. unfold std_fmin. rsimp. unfold Rmin. destruct (Rltb b a) eqn:E; [apply Rltb_true in E|apply Rltb_false in E]; destruct (Rle_dec a b); lra. Qed.
Lemma magnitude_R : forall v, magnitude (A := real_arith) v = norm v.
Proof. reflexivity. Qed.
Lemma to_int_IZR : forall a z, R_to_int (IZR a) = Some z -> z = a.
Proof. intros a z H. apply to_int_R in H. rewrite Ztrunc_IZR in H. lia. Qed.
Lemma rmax_IZR : forall a b, Rmax (IZR a) (IZR b) = IZR (Z.max a b).
Proof.
  intros a b. unfold Rmax. destruct (Rle_dec (IZR a) (IZR b)) as [L|L].
  - apply le_IZR in L. rewrite Z.max_r by exact L. reflexivity.
  - rewrite Z.max_l; [reflexivity|]. destruct (Z.le_gt_cases b a) as [K|K]; [exact K|]. exfalso. apply L. apply IZR_le. lia.
Qed.

Lemma connector_points_R : forall z e kp rate n, 0 < rate ->
  connector_points (A := real_arith) (tip_of z) e kp (1 / rate) = Some n -> n = catch_up_steps kp rate z e.
Proof.
  intros z e kp rate n P H. unfold connector_points in H. rewrite rmax, rmin, !rmaxs, distance_R, !magnitude_R in H. cbn [tip_of t_pos t_vel] in H. rsimp.
  change 1 with (IZR 1) in H at 1. unfold catch_up_steps.
  match type of H with context [Zceil ?x] => replace x with (Rmin (dist (r_pos z) (ke_pos e)) fmaxval /
    Rmax (Rmax (norm (r_vel z)) (norm (ke_vel e))) (kp_catchup kp) * rate) in H end.
  2:{ rsimp. unfold Rdiv. rewrite Rmult_1_l, Rinv_inv. reflexivity. }
  rewrite rmax_IZR in H. apply to_int_IZR in H. rewrite H. apply Z.max_comm.
Qed.

Lemma ramp_of : forall lo hi x : R, lo <= hi -> normalize01 (A := real_arith) lo hi x = ramp lo hi x.
Proof. exact ramp_normalize. Qed.

Lemma valid_kalman_R : forall p kp, validate_params p = OkStatus -> p_prediction p = PredKalman kp ->
  0 < kp_process kp /\ 0 < kp_measure kp /\ (0 < kp_min_stable kp)%Z /\ (0 < kp_max_times kp)%Z /\ 0 < kp_catchup kp /\ 0 < kp_interval kp /\
  (0 < cp_samples (kp_conf kp))%Z /\ 0 < cp_max_dist (kp_conf kp) /\ 0 <= cp_min_speed (kp_conf kp) <= cp_max_speed (kp_conf kp) /\
  0 < cp_max_dev (kp_conf kp) /\ 0 <= cp_baseline (kp_conf kp) <= 1.
Proof.
  intros p kp V P. destruct (validate_params_parts p V) as (_ & _ & _ & _ & VP & _).
  rewrite P in VP. cbn [validate_prediction] in VP. unfold validate_kalman in VP. cbv zeta in VP.
  repeat (apply and_then_ok in VP; let K := fresh "K" in destruct VP as [K VP]).
  destruct (fltb (cp_max_speed (kp_conf kp)) (cp_min_speed (kp_conf kp))) eqn:L1; [discriminate VP|].
  apply and_then_ok in VP. destruct VP as [K11 VP].
  destruct (fltb (cp_baseline (kp_conf kp)) f0) eqn:L2; cbn [orb] in VP; [discriminate VP|].
  destruct (fltb f1 (cp_baseline (kp_conf kp))) eqn:L3; cbn [orb] in VP; [discriminate VP|].
  assert (IZ : forall z l, validate_gt0_i z l = OkStatus -> (0 < z)%Z).
  { intros z l H. unfold validate_gt0_i in H. destruct (Z.leb_spec z 0); [discriminate H|lia]. }
  rsimp. apply Rltb_false in L1, L2, L3.
  pose proof (ge0_f_R _ _ K9).
  repeat match goal with |- _ /\ _ => split end; eauto using gt0_f_R, gt0_d_R.
Qed.

Lemma confidence_R : forall kp k l q, k_params k = kp -> 
  0 < kp_interval kp -> 0 < cp_max_dist (kp_conf kp) -> cp_min_speed (kp_conf kp) <= cp_max_speed (kp_conf kp) -> 0 < cp_max_dev (kp_conf kp) ->
  kf_iter (k_x k) = Z.of_nat (List.length l) -> forall e,
  kpred_confidence (A := real_arith) k q e = confidence kp l q e.
Proof.
  intros kp k l q KP I1 I2 I3 I4 IT e. unfold kpred_confidence, confidence. cbv zeta. rewrite KP, IT, rmin, !ramp_of, !distance_R by (rsimp; lra).
  rewrite interp_f_R by (pose proof (ramp_range 0 (cp_max_dev (kp_conf kp)) (distance (A := real_arith) (ke_pos (evaluate_cubic e (kp_interval kp)))
       (vadd (ke_pos e) (vscale (d2f (kp_interval kp)) (ke_vel e))))); rsimp; lra).
  rewrite INR_IZR_INZ. rsimp.
  set (t := kp_interval kp).
  match goal with |- _ = _ * _ * ramp _ _ (dist _ ?g / _) * _ => assert (EG : ke_pos (evaluate_cubic (A := real_arith) e t) = g) end.
  { destruct e as [[px py] [ux uy] [ax ay] [jx jy]]. unfold evaluate_cubic, vadd, vscale, vdiv. cbn [ke_pos ke_vel ke_acc ke_jerk vx vy]. rsimp. f_equal; field. }
  rewrite EG.
  match goal with |- context [distance ?g (vadd ?a ?b)] => assert (ES : vadd a b = mkVec2 (vx (ke_pos e) + vx (ke_vel e) * t) (vy (ke_pos e) + vy (ke_vel e) * t)) end.
  { unfold vadd, vscale. rsimp. f_equal; ring. }
  rewrite ES. reflexivity.
Qed.
Lemma confidence_range : forall kp l q e, 0 <= cp_baseline (kp_conf kp) <= 1 -> (0 < cp_samples (kp_conf kp))%Z -> 0 <= confidence kp l q e <= 1.
Proof.
  intros kp l q e B S. unfold confidence. cbv zeta.
  match goal with |- 0 <= ?a * (1 - ?b) * ?c * (?d + (1 - ?d) * (1 - ?f)) <= 1 =>
    assert (HA : 0 <= a <= 1); [|assert (HB : 0 <= b <= 1) by apply ramp_range; assert (HC : 0 <= c <= 1) by apply ramp_range; assert (HF : 0 <= f <= 1) by apply ramp_range;
    set (x := a) in *; set (y := b) in *; set (z := c) in *; set (w := f) in * ] end.
  - split; [|apply Rmin_l]. apply Rmin_glb; [lra|]. apply Rle_mult_inv_pos; [apply pos_INR|]. apply IZR_lt. exact S.
  - assert (H1 : 0 <= x * (1 - y) <= 1) by nra. assert (H2 : 0 <= x * (1 - y) * z <= 1) by nra.
    assert (H3 : 0 <= cp_baseline (kp_conf kp) + (1 - cp_baseline (kp_conf kp)) * (1 - w) <= 1) by nra. nra.
Qed.

Lemma connector_curve : forall z e n rate i (D := IZR n / rate), 0 < rate -> (1 <= n)%Z ->
  let c a va b vb := mkCubic a va ((3 * (b - a) - D * (2 * va + vb)) / D ^ 2) ((2 * (a - b) + D * (va + vb)) / D ^ 3) in
  let cx := c (vx (r_pos z)) (vx (r_vel z)) (vx (ke_pos e)) (vx (ke_vel e)) in
  let cy := c (vy (r_pos z)) (vy (r_vel z)) (vy (ke_pos e)) (vy (ke_vel e)) in
  connector_tip (A := real_arith) (tip_of z) e (IZR n * (1 / rate)) n i =
  mkTip (mkVec2 (value cx (IZR i / rate)) (value cy (IZR i / rate))) (mkVec2 (slope cx (IZR i / rate)) (slope cy (IZR i / rate)))
    (mkVec2 (bend cx (IZR i / rate)) (bend cy (IZR i / rate))) (r_time z + IZR i / rate).
Proof.
  intros z e n rate i D P N c cx cy. assert (NP : 0 < IZR n) by (apply IZR_lt; lia).
  unfold connector_tip, connector_a, connector_b, vadd, vsub, vscale, vdiv. cbn [tip_of t_pos t_vel t_time]. rsimp.
  f_equal; try f_equal; unfold cx, cy, c, value, slope, bend, D; cbn [cub0 cub1 cub2 cub3]; field; lra.
Qed.
Lemma curve_connects : forall a va b vb D, 0 < D ->
  connects (mkCubic a va ((3 * (b - a) - D * (2 * va + vb)) / D ^ 2) ((2 * (a - b) + D * (va + vb)) / D ^ 3)) a va b vb D.
Proof. intros a va b vb D P. unfold connects, value, slope. cbn [cub0 cub1 cub2 cub3]. repeat split; field; lra. Qed.

Lemma some_inj : forall {X} (a b : X), Some a = Some b -> a = b.
Proof. intros X a b H. injection H as H. exact H. Qed.
Lemma prediction_R : forall p kp l k z tips q, validate_params p = OkStatus -> p_prediction p = PredKalman kp ->
  k_params k = kp -> k_sampling k = p_sampling p -> k_last k = Some q -> l <> [] ->
  k_times k = most_recent (kp_max_times kp) (map (fun a => i_time (fst a)) l) ->
  filtering (kp_process kp) (kp_measure kp) (xs_of l) (k_x k) ->
  filtering (kp_process kp) (kp_measure kp) (ys_of l) (k_y k) ->
  kpred_predict (A := real_arith) k (tip_of z) = Ret tips ->
  let rate := sp_rate (p_sampling p) in let e := estimate kp l in
  if (Z.of_nat (List.length l) <? kp_min_stable kp)%Z then tips = []
  else forall out, map tip_of out = tips ->
    predicted rate z e (Z.to_nat (catch_up_steps kp rate z e)) (Z.to_nat (Zceil (kp_interval kp * rate * confidence kp l q e))) out.
Proof.
  intros p kp l k z tips q V PK KP KS KL NE KT FX FY H rate e.
  destruct (valid_kalman_R p kp V PK) as (V1 & V2 & V3 & V4 & V5 & V6 & V7 & V8 & V9 & V10 & V11).
  destruct (valid_R p V) as (_ & _ & VR & _). fold rate in VR.
  destruct (filtering_kalman _ _ _ _ (Rlt_le _ _ V1) V2 FX) as [_ IX]. destruct (filtering_kalman _ _ _ _ (Rlt_le _ _ V1) V2 FY) as [_ IY].
  unfold xs_of, ys_of in IX, IY. rewrite map_length in IX, IY.
  assert (ES : kpred_stable k = negb (Z.of_nat (List.length l) <? kp_min_stable kp)%Z).
  { unfold kpred_stable. rewrite IX, IY, KP, andb_diag. rewrite Z.ltb_antisym, negb_involutive. reflexivity. }
  assert (TN : k_times k <> []).
  { rewrite KT. unfold most_recent. intros E. apply (f_equal (@List.length _)) in E. rewrite skipn_length, map_length in E. cbn [List.length] in E.
    destruct l; [congruence|]. cbn [List.length] in E. lia. }
  unfold kpred_predict in H. rewrite KL in H.
  destruct (Z.of_nat (List.length l) <? kp_min_stable kp)%Z.
  - assert (EN : kpred_estimate k = None) by (unfold kpred_estimate; rewrite ES; reflexivity). rewrite EN in H. injection H as <-. reflexivity.
  - destruct (kpred_estimate k) as [e'|] eqn:EE.
    2:{ exfalso. unfold kpred_estimate in EE. rewrite ES in EE. cbn [negb] in EE. destruct (k_times k); [congruence|discriminate EE]. }
    assert (e' = e) by (apply (estimate_R kp l k e' (Rlt_le _ _ V1) V2 KP KT FX FY EE)). subst e'. clear EE ES TN.
    intros out MO. rewrite KS, KP in H. fold rate in H. rsimp. unfold cubic_connector in H.
    destruct (connector_points (A := real_arith) (tip_of z) e kp (1 / rate)) as [n1|] eqn:N1; [|discriminate H]. apply connector_points_R in N1; [|exact VR].
    cbn [to_int obind] in H. unfold kpred_number_of_points in H. rewrite (confidence_R kp k l q KP) in H by (try assumption; lra).
    rewrite KS, KP, rmax in H. fold rate in H. rsimp. change 0 with (IZR 0) in H at 1. rewrite rmax_IZR in H.
    destruct (R_to_int _) as [n2|] eqn:N2; [|discriminate H]. apply to_int_IZR in N2. cbn [to_int] in H. injection H as H.
    assert (CR := confidence_range kp l q e V11 V7).
    assert (N2' : Z.to_nat n2 = Z.to_nat (Zceil (kp_interval kp * rate * confidence kp l q e))) by (rewrite N2; lia).
    rewrite <- N2'. rewrite <- N1. assert (P1 : (1 <= n1)%Z) by (rewrite N1; unfold catch_up_steps; lia).
    assert (NP : 0 < IZR n1) by (apply IZR_lt; lia).
    assert (IN : INR (Z.to_nat n1) = IZR n1) by (rewrite INR_IZR_INZ; f_equal; lia).
    assert (DP : 0 < IZR n1 / rate) by (apply Rdiv_lt_0_compat; assumption).
    unfold predicted.
    eexists _, _, (mkCubic (vx (ke_pos e)) (vx (ke_vel e)) (vx (ke_acc e) / 2) (vx (ke_jerk e) / 6)), (mkCubic (vy (ke_pos e)) (vy (ke_vel e)) (vy (ke_acc e) / 2) (vy (ke_jerk e) / 6)).
    rewrite IN. split; [apply curve_connects; exact DP|]. split; [apply curve_connects; exact DP|].
    split.
    { unfold extends, value, slope, bend. cbn [cub0 cub1 cub2 cub3]. destruct e as [[px py] [ux uy] [ax ay] [jx jy]]. cbn [ke_pos ke_vel ke_acc ke_jerk vx vy].
      repeat split; f_equal; field. }
    split.
    { rewrite <- (map_length tip_of), MO, <- H, app_length, map_length, seq_length, prediction_length. reflexivity. }
    intros j r NJ. assert (NT : nth_error tips j = Some (tip_of r)) by (rewrite <- MO, nth_error_map, NJ; reflexivity).
    rewrite <- H in NT. clear H.
    assert (TM : forall x, tip_of r = x -> r_time r = t_time x /\ r_pos r = t_pos x /\ r_vel r = t_vel x /\ r_acc r = t_acc x) by (intros x <-; auto).
    destruct (Nat.lt_ge_cases j (Z.to_nat n1)) as [L|L].
    + rewrite nth_error_app1 in NT by (rewrite map_length, seq_length; exact L).
      rewrite nth_error_map, (nth_error_nth' _ O), seq_nth in NT by (try rewrite seq_length; exact L). cbn [option_map] in NT. apply some_inj in NT.
      rewrite connector_curve in NT by assumption. symmetry in NT. apply TM in NT. cbn [t_time t_pos t_vel t_acc] in NT. destruct NT as (T1 & T2 & T3 & T4).
      change (Z.of_nat (1 + j)) with (Z.of_nat (S j)) in *. rewrite <- INR_IZR_INZ in *.
      split; [exact T1|]. split; [|intros K; lia]. intros _. unfold on_curve. auto.
    + rewrite nth_error_app2 in NT by (rewrite map_length, seq_length; exact L). rewrite map_length, seq_length in NT.
      apply prediction_nth in NT. cbv zeta in NT. apply TM in NT. cbn [t_time t_pos t_vel t_acc] in NT. destruct NT as (T1 & T2 & T3 & T4).
      split; [|split; [intros K; lia|intros _]].
      * rewrite T1. destruct (Z.to_nat n1) as [|n] eqn:EN; [lia|]. rewrite seq_S, map_app. cbn [map plus]. rewrite back_snoc.
        rewrite connector_curve by assumption. cbn [t_time].
        replace (Z.of_nat (S n)) with n1 by lia. rewrite <- IN. replace (S (j - S n)) with (S j - S n)%nat by lia. rewrite (minus_INR (S j)) by lia.
        match goal with |- @eq _ ?a ?b => change (@eq R a b) end. field. lra.
      * unfold on_curve. rewrite T2, T3, T4. replace (S (j - Z.to_nat n1)) with (S j - Z.to_nat n1)%nat by lia. set (t := INR _).
        destruct e as [[px py] [ux uy] [ax ay] [jx jy]]. unfold evaluate_cubic, vadd, vscale, vdiv, value, slope, bend. cbn [cub0 cub1 cub2 cub3 ke_pos ke_vel ke_acc ke_jerk vx vy]. rsimp.
        split; [|split]; f_equal; field; lra.
Qed.

(** ** C40 *)
(** [ws] are the smoothed positions of the accepted inputs (C36); [z] is the last
    result of the stroke so far. *)
Theorem C40_kalman_prediction : forall (A := real_arith) fuel hist s p kp es seen rs out,
  after_seen fuel hist s es seen -> ps_params s = Some p -> p_prediction p = PredKalman kp ->
  lp_enabled (pp_loop (p_position p)) = false ->
  answers fuel hist [CPredict rs] = Ret [RResults OkStatus out] ->
  sorted_if_smoothing (p_wobble p) seen ->
  exists ws q z, List.length ws = List.length es /\
    subseq (combine (map fst es) ws) (smooth_points (p_wobble p) seen) /\
    back ws = Some q /\ back (List.concat (map snd es)) = Some z /\
    let pts := combine (map fst es) ws in
    let rate := sp_rate (p_sampling p) in
    let e := estimate kp pts in
    if (Z.of_nat (List.length es) <? kp_min_stable kp)%Z then out = []
    else predicted rate z e (Z.to_nat (catch_up_steps kp rate z e))
           (Z.to_nat (Zceil (kp_interval kp * rate * confidence kp pts q e))) out.
Proof.
  intros A fuel hist s p kp es seen rs out AS P PK L AN SO. subst A.
  assert (ST : after_stroke fuel hist s es) by (destruct AS as (ma & rsa & A1 & A2 & A3 & _ & A4); exists ma, rsa; auto).
  assert (AF : after fuel hist s) by (destruct AS as (ma & rsa & Ra & Pa & _); exists ma, rsa; auto).
  destruct (remembered_state _ _ _ _ _ AS) as (m0 & rs0 & R0 & _ & _ & _ & RM).
  destruct (on_spring_state _ _ _ _ ST) as (m1 & rs1 & R1 & _ & _ & _ & SP). rewrite R0 in R1. injection R1 as <- <-.
  destruct (accepted_predict _ _ _ _ _ _ AF AN) as (m & r0 & m' & R & (T1 & T2 & _) & G & C & U).
  rewrite R0 in R. injection R as -> ->.
  destruct (prd_ok fuel m m' out U) as (p' & pr & last0 & tips & lm & MQ & MPR & ML & PC & MS & _).
  assert (p' = p) by congruence. subst p'. pose proof (g_valid _ G p MQ) as V.
  pose proof (C p MQ ltac:(left; congruence)) as CP. pose proof CP as (C1 & C2 & C3 & C4).
  destruct (RM p last0 MQ ML) as (cs & ws & [H1 H2 H3 H4 H5 H6]).
  destruct (SP p last0 MQ ML) as (d & es' & ws' & -> & LW & _ & _ & KD). destruct (KD L) as [_ TIP]. clear KD.
  cbn [core_of co_w co_s co_last co_pred co_tip] in *.
  assert (ON : prediction_on p = true) by (unfold prediction_on; rewrite PK; reflexivity). specialize (H6 ON). rewrite ON, MPR in H6.
  destruct (valid_kalman_R p kp V PK) as (_ & _ & _ & MT & _).
  destruct (predicting_kalman p kp _ _ PK MT H6) as (k & EK & K1 & K2 & K3 & K4 & K5 & K6). injection EK as ->. cbn [pred_construct] in PC.
  set (es := (d, [down_result d]) :: es') in *.
  destruct H5 as (e0 & w0 & o0 & H5a & H5b).
  set (z := last (List.concat (map snd es')) (down_result d)) in *. rewrite TIP in PC.
  assert (BW : back ws = Some (li_corrected last0)) by (rewrite H5b; apply back_snoc).
  assert (KL : k_last k = Some (li_corrected last0)).
  { rewrite K3, H5a, H5b, map_app. cbn [map fst]. rewrite combine_snoc.
    - rewrite back_snoc. reflexivity.
    - rewrite H5a, H5b, !app_length in H3. cbn in H3. rewrite map_length. lia. }
  assert (LP : List.length (combine (map fst es) ws) = List.length es) by (rewrite combine_length, map_length, H3; apply Nat.min_id).
  assert (NE : combine (map fst es) ws <> []) by (intros E; rewrite E in LP; discriminate LP).
  pose proof (prediction_R p kp (combine (map fst es) ws) k z tips (li_corrected last0) V PK K1 K2 KL NE K4 K5 K6 PC) as PR.
  exists ws, (li_corrected last0), z. split; [exact H3|]. split.
  { unfold smooth_points. rewrite <- (smoothing_spec p _ _ _ V H1 SO). exact H4. }
  split; [exact BW|]. split.
  { cbn [es map snd List.concat]. cbn [app]. unfold z. clear. generalize (down_result d). generalize (List.concat (map snd es')).
    induction l as [|a l IH]; intros x; [reflexivity|]. rewrite back_cons, last_cons. apply IH. }
  cbv zeta in *. rewrite LP in PR.
  match goal with |- if ?b then _ else _ => match type of PR with if ?b' then _ else _ => change b' with b in PR; destruct b end end.
  - subst tips. assert (E : Ret (m_loop m, @nil Result) = Ret (lm, out)) by exact MS. injection E as _ E. symmetry. exact E.
  - apply PR. eapply model_stylus_off; [|exact MS]. rewrite C4. exact L.
Qed.

(** ** C41 *)
(** The confidence is in [0, 1]; the extension never has more than
    [prediction_interval * min_output_rate] results, rounded up, so it lasts less
    than one step longer than [prediction_interval]. *)
Theorem C41_confidence_limits_extension : forall (A := real_arith) p kp pts q e,
  validate_params p = OkStatus -> p_prediction p = PredKalman kp ->
  0 <= confidence kp pts q e <= 1 /\
  let rate := sp_rate (p_sampling p) in
  let n2 := Z.to_nat (Zceil (kp_interval kp * rate * confidence kp pts q e)) in
  (n2 <= Z.to_nat (Zceil (kp_interval kp * rate)))%nat /\
  INR n2 / rate < kp_interval kp + 1 / rate.
Proof.
  intros A p kp pts q e V PK. subst A.
  destruct (valid_kalman_R p kp V PK) as (V1 & V2 & V3 & V4 & V5 & V6 & V7 & V8 & V9 & V10 & V11).
  destruct (valid_R p V) as (_ & _ & VR & _). pose proof (confidence_range kp pts q e V11 V7) as CR. split; [exact CR|]. cbv zeta.
  set (rate := sp_rate (p_sampling p)) in *. set (c := confidence kp pts q e) in *.
  assert (PI1 : 0 < kp_interval kp * rate) by (apply Rmult_lt_0_compat; assumption).
  assert (LE : kp_interval kp * rate * c <= kp_interval kp * rate) by nra.
  split; [apply Z2Nat.inj_le|]; try (apply Zceil_le; exact LE).
  - apply le_IZR. pose proof (Zceil_ub (kp_interval kp * rate * c)). assert (0 <= kp_interval kp * rate * c) by nra. 
    apply Rle_trans with (kp_interval kp * rate * c); assumption.
  - apply le_IZR. pose proof (Zceil_ub (kp_interval kp * rate)). lra.
  - assert (ZL : (0 <= Zceil (kp_interval kp * rate * c))%Z).
    { apply le_IZR. pose proof (Zceil_ub (kp_interval kp * rate * c)). assert (0 <= kp_interval kp * rate * c) by nra.
      apply Rle_trans with (kp_interval kp * rate * c); assumption. }
    rewrite INR_IZR_INZ, Z2Nat.id by exact ZL. pose proof (Zceil_lb (kp_interval kp * rate * c)).
    apply Rmult_lt_reg_r with rate; [exact VR|].
    match goal with |- ?x / _ * _ < _ => replace (x / rate * rate) with x by (field; lra) end.
    replace ((kp_interval kp + 1 / rate) * rate) with (kp_interval kp * rate + 1) by (field; lra). lra.
Qed.

(** In terms of the API: every prediction is a catch-up followed by an extension,
    and the extension is limited. *)
Theorem C41_extension_is_limited : forall (A := real_arith) fuel hist s p kp es seen rs out,
  after_seen fuel hist s es seen -> ps_params s = Some p -> p_prediction p = PredKalman kp ->
  lp_enabled (pp_loop (p_position p)) = false ->
  answers fuel hist [CPredict rs] = Ret [RResults OkStatus out] ->
  sorted_if_smoothing (p_wobble p) seen ->
  let rate := sp_rate (p_sampling p) in
  out = [] \/ exists z e n1 n2, predicted rate z e n1 n2 out /\ (1 <= n1)%nat /\
    (n2 <= Z.to_nat (Zceil (kp_interval kp * rate)))%nat /\
    INR n2 / rate < kp_interval kp + 1 / rate.
Proof.
  intros A fuel hist s p kp es seen rs out AS P PK L AN SO rate. subst A.
  destruct (C40_kalman_prediction _ _ _ _ _ _ _ _ _ AS P PK L AN SO) as (ws & q & z & _ & _ & _ & _ & H). cbv zeta in H.
  destruct (_ <? _)%Z; [left; exact H|right].
  assert (V : validate_params p = OkStatus).
  { destruct (remembered_state _ _ _ _ _ AS) as (m & rs0 & R0 & (T1 & _) & G & _). apply (g_valid _ G). congruence. }
  destruct (C41_confidence_limits_extension p kp (combine (map fst es) ws) q (estimate kp (combine (map fst es) ws)) V PK) as (_ & B1 & B2).
  eexists z, _, _, _. split; [exact H|]. split; [unfold catch_up_steps; lia|]. split; [exact B1|exact B2].
Qed.

(** ** C22, C23 for predictions *)
Lemma even_gaps : forall l t dt, 0 <= dt -> (forall j x, nth_error l j = Some x -> x = t + INR (S j) * dt) -> gaps_within dt t l.
Proof.
  induction l as [|u l IH]; intros t dt D H; [exact I|]. cbn [gaps_within].
  assert (E : u = t + dt) by (rewrite (H O u eq_refl); cbn [INR]; ring). split; [lra|]. apply IH; [exact D|].
  intros j x N. rewrite (H (S j) x N), E. rewrite (S_INR (S j)). ring.
Qed.

Lemma predicting_end : forall p l pr, p_prediction p = PredStrokeEnd -> predicting p l pr ->
  exists o, pr = Some (PStrokeEnd (p_position p) (p_sampling p) o).
Proof.
  intros p l pr P H. induction H as [|l pr i c pr' H (o & ->) U].
  - unfold make_predictor. rewrite P. eauto.
  - cbn in U. injection U as <-. eauto.
Qed.

Theorem C22_predict_spacing : forall (A := real_arith) fuel hist s p i0 es rs out,
  after_stroke fuel hist s es -> ps_params s = Some p -> ps_last s = Some i0 -> prediction_on p = true ->
  answers fuel hist [CPredict rs] = Ret [RResults OkStatus out] ->
  gaps_within (1 / sp_rate (p_sampling p)) (i_time i0) (map r_time out).
Proof.
  intros A fuel hist s p i0 es rs out ST P L0 ON AN. subst A.
  assert (AF : after fuel hist s) by (destruct ST as (ma & rsa & Ra & Pa & _); exists ma, rsa; auto).
  destruct (paced_state _ _ _ _ ST) as (m1 & rs1 & R1 & _ & _ & _ & PS).
  apply after_seen_stroke in ST. destruct ST as (seen & AS).
  destruct (remembered_state _ _ _ _ _ AS) as (m0 & rs0 & R0 & _ & _ & _ & RM). rewrite R0 in R1. injection R1 as <- <-.
  destruct (accepted_predict _ _ _ _ _ _ AF AN) as (m & r0 & m' & R & (T1 & T2 & _) & G & C & U).
  rewrite R0 in R. injection R as -> ->.
  destruct (prd_ok fuel m m' out U) as (p' & pr & last0 & tips & lm & MQ & MPR & ML & PC & MS & _).
  assert (p' = p) by congruence. subst p'. pose proof (g_valid _ G p MQ) as V. destruct (valid_R p V) as (_ & _ & VR & _).
  pose proof (C p MQ ltac:(left; congruence)) as CP. pose proof CP as (C1 & C2 & C3 & C4).
  destruct (RM p last0 MQ ML) as (cs & ws & [H1 H2 H3 H4 (e0 & w0 & o0 & H5 & H5') H6]). destruct (PS p last0 MQ ML) as [[OT _] _].
  cbn [core_of co_w co_s co_last co_pred co_tip] in *. specialize (H6 ON). rewrite ON, MPR in H6.
  assert (I0 : i_time (li_input last0) = i_time i0) by (rewrite L0, ML in T2; injection T2 as ->; reflexivity).
  assert (RP : 0 < 1 / sp_rate (p_sampling p)) by (apply Rdiv_lt_0_compat; lra).
  assert (TM : map r_time out = map t_time tips).
  { eapply model_stylus_times; [|exact MS]. intros LE. rewrite C4 in LE.
    destruct (remembering_raw _ _ _ (proj1 (proj2 (proj2 (proj2 (validate_params_parts p V))))) H2) as (_ & [[K1 K2]|(k & K1 & K2)]).
    - exfalso. destruct K2 as [K2|[K2 _]]; [|pose proof (mitigation_normal p V LE); congruence].
      pose proof (smoothing_length _ _ _ _ H1) as SL. destruct cs; [|destruct seen; discriminate].
      destruct seen; [|discriminate SL]. inversion H1 as [|l' cs' st' i' c' st2 Q1 Q2 Q3]. destruct l'; discriminate Q3.
    - intros E. rewrite E in K2. inversion K2 as [K3|]. symmetry in K3. apply (f_equal (@List.length _)) in K3. rewrite skipn_length in K3.
      pose proof (ret_le _ _ _ K1). cbn in K3. lia. }
  rewrite TM, <- I0, <- OT. unfold prediction_on in ON. destruct (p_prediction p) as [|kp|] eqn:PK; [| |discriminate ON].
  - destruct (predicting_end p _ _ PK H6) as (o & EO). injection EO as ->. cbn [pred_construct] in PC. destruct o as [pos|]; [|injection PC as <-; exact I].
    destruct (model_end_of_stroke _ _ _ _ _ _) as [sf o] eqn:ME in PC. cbn [snd] in PC. injection PC as <-.
    rsimp. eapply end_times; [exact RP|apply Rle_refl|exact ME].
  - destruct (valid_kalman_R p kp V PK) as (_ & _ & _ & MT & _).
    destruct (predicting_kalman p kp _ _ PK MT H6) as (k & EK & K1 & K2 & K3 & K4 & K5 & K6). injection EK as ->. cbn [pred_construct] in PC.
    set (l := combine (map fst es) ws) in *.
    assert (NEL : l <> [] /\ k_last k = Some (li_corrected last0)).
    { assert (EL : l = combine (map fst e0) w0 ++ [(li_input last0, li_corrected last0)]).
      { unfold l. rewrite H5, H5', map_app. cbn [map fst]. apply combine_snoc.
        rewrite H5, H5', !app_length in H3. cbn [List.length] in H3. rewrite map_length. lia. }
      rewrite K3, EL, back_snoc. split; [|reflexivity]. destruct (combine (map fst e0) w0); discriminate. }
    set (mk := fun t : @TipState real_arith => mkResult (A := real_arith) (t_pos t) (t_vel t) (t_acc t) (t_time t) (0:R) (0:R) (0:R)).
    assert (TMK : forall t, tip_of (mk t) = t) by (intros []; reflexivity).
    rewrite <- (TMK (pm_state (m_pos m))) in PC |- *.
    pose proof (prediction_R p kp l k (mk (pm_state (m_pos m))) tips _ V PK K1 K2 (proj2 NEL) (proj1 NEL) K4 K5 K6 PC) as PR. cbv zeta in PR.
    destruct (Z.of_nat _ <? _)%Z; [subst tips; exact I|].
    specialize (PR (map mk tips)). rewrite map_map, (map_ext _ (fun t => t) TMK), map_id in PR. specialize (PR eq_refl).
    destruct PR as (cx & cy & ex & ey & _ & _ & _ & _ & PN). apply even_gaps; [lra|].
    intros j x NJ. apply nth_map_inv in NJ. destruct NJ as (t & NT & <-).
    destruct (PN j (mk t)) as [E _]; [rewrite nth_error_map, NT; reflexivity|]. cbn [mk r_time tip_of t_time] in *. rewrite E.
    match goal with |- @eq _ ?a ?b => change (@eq R a b) end. field. lra.
Qed.

Theorem C23_predict_times_never_decrease : forall (A := real_arith) fuel hist s p i0 es rs out,
  after_stroke fuel hist s es -> ps_params s = Some p -> ps_last s = Some i0 -> prediction_on p = true ->
  answers fuel hist [CPredict rs] = Ret [RResults OkStatus out] ->
  Sorted Rle (map r_time (List.concat (map snd es) ++ out)) /\
  Forall (fun r => i_time i0 <= r_time r) out.
Proof.
  intros A fuel hist s p i0 es rs out AS P L ON AN. subst A.
  destruct (C22_stroke_rate _ _ _ _ _ _ AS P L) as (d & o & rest & l & E0 & E & GW & LL).
  pose proof (C22_predict_spacing _ _ _ _ _ _ _ _ AS P L ON AN) as GU.
  split.
  - rewrite map_app.
    assert (G2 : gaps_within (1 / sp_rate (p_sampling p)) (i_time d) (l ++ map r_time out)).
    { apply gaps_app. split; [exact GW|]. refine (eq_ind _ (fun z => gaps_within _ z _) GU _ (eq_sym LL)). }
    refine (eq_ind _ (fun z => Sorted Rle (z ++ map r_time out)) _ _ (eq_sym E)). apply (gaps_sorted _ _ _ G2).
  - destruct (gaps_sorted _ _ _ GU) as [_ S2]. inversion S2; subst. rewrite Forall_map in H2.
    eapply Forall_impl; [|exact H2]. cbn. intros a ?. lra.
Qed.

(** C34 for predictions, without the hypothesis on times. *)
Theorem C34_mitigation_prediction : forall (A := real_arith) fuel hist s p i0 es seen rs out,
  after_seen fuel hist s es seen -> ps_params s = Some p -> ps_last s = Some i0 -> prediction_on p = true ->
  lp_enabled (pp_loop (p_position p)) = true ->
  answers fuel hist [CPredict rs] = Ret [RResults OkStatus out] ->
  sorted_if_smoothing (p_wobble p) seen ->
  exists hs pts,
    answers fuel (map unmitigated hist) [CPredict rs] = Ret [RResults OkStatus hs] /\
    held (p_stylus p) (smooth_points (p_wobble p) seen) pts /\
    blended seen pts (pp_loop (p_position p)) (since_down es) (i_time i0) hs out.
Proof.
  intros A fuel hist s p i0 es seen rs out AS P L0 ON EN AN SO. subst A.
  eapply C34_mitigation_predict; try eassumption.
  assert (ST : after_stroke fuel hist s es) by (destruct AS as (ma & rsa & A1 & A2 & A3 & _ & A4); exists ma, rsa; auto).
  destruct (C23_predict_times_never_decrease _ _ _ _ _ _ _ _ ST P L0 ON AN) as [SRT _].
  unfold since_down. destruct (List.concat (map snd es)) as [|a l]; [|cbn [tl app map] in *; eapply sorted_tail; exact SRT].
  exact SRT.
Qed.
