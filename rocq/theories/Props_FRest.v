(** * C37 in IEEE arithmetic: a resting pen. *)
From Coq Require Import ZArith Bool List Sorted Reals Lra Lia Psatz.
From Flocq Require Import Core.Core IEEE754.BinarySingleNaN.
From Verif Require Export Props_FTime Memory Props_Range.
Import ListNotations.
Open Scope R_scope.

(** ** Specification *)
(** Equal in the sense of the operator == of C++ (which equates 0 and -0). *)
Definition stands {acosf : float32 -> float32} (q : Vec2 (A := ieee acosf)) (r : Result (A := ieee acosf)) : Prop :=
  veqb (r_pos r) q = true /\ veqb (r_vel r) vzero = true /\ veqb (r_acc r) vzero = true.
Definition at_place {acosf : float32 -> float32} (q : Vec2 (A := ieee acosf)) (i : Input (A := ieee acosf)) : Prop :=
  veqb (i_pos i) q = true.

(** Times of ordinary size, and no two of them closer than the smallest float
    unless they are the same. *)
Definition ordinary_time {acosf : float32 -> float32} (i : Input (A := ieee acosf)) : Prop :=
  is_finite (i_time i : float64) = true /\ Rabs (B2R (i_time i : float64)) <= bpow radix2 100.
Definition apart {acosf : float32 -> float32} (a b : Input (A := ieee acosf)) : Prop :=
  B2R (i_time a : float64) = B2R (i_time b : float64) \/ bpow radix2 (-149) <= Rabs (B2R (i_time b : float64) - B2R (i_time a : float64)).

(** No smoothing; an output rate of ordinary size; and if mitigation is on, its
    bounds are finite (the code accepts infinities and NaN). *)
Definition ordinary_params {acosf : float32 -> float32} (p : StrokeModelParams (A := ieee acosf)) : Prop :=
  wp_enabled (p_wobble p) = false /\ bpow radix2 (-100) <= B2R (sp_rate (p_sampling p) : float64) /\
  let l := pp_loop (p_position p) in
  (lp_enabled l = true -> is_finite (lp_speed_lower l : float32) = true /\ is_finite (lp_speed_upper l : float32) = true /\
     is_finite (lp_strength_lower l : float32) = true /\ is_finite (lp_strength_upper l : float32) = true).

(** ** Proof *)
(** *** The number [x] *)
Definition num {p e} (x : R) (v : binary_float p e) : Prop := is_finite v = true /\ B2R v = x.

Section Num.
Variables prec emax : Z.
Context (prec_gt_0_ : Prec_gt_0 prec) (prec_lt_emax_ : Prec_lt_emax prec emax).
Notation bf := (binary_float prec emax).
Lemma small_0 : small prec emax 0.
Proof. unfold small. rewrite rnd_0, Rabs_R0. apply bpow_gt_0. Qed.
Lemma num_small : forall x (v : bf), num x v -> small prec emax x.
Proof. intros x v [_ <-]. apply small_bound with (x := v); [exact prec_gt_0_|lra]. Qed.
Lemma num_rnd : forall x (v : bf), num x v -> rnd prec emax x = x.
Proof. intros x v [_ <-]. apply rnd_id. apply fmt_B2R. Qed.
Lemma num_minus : forall x (v w : bf), num x v -> num x w -> num 0 (Bminus mode_NE v w).
Proof.
  intros x v w [F1 E1] [F2 E2]. destruct (minus_fin prec emax _ _ v w F1 F2) as [F E].
  - rewrite E1, E2, Rminus_diag_eq by reflexivity. apply small_0.
  - split; [exact F|]. rewrite E, E1, E2, Rminus_diag_eq by reflexivity. apply rnd_0.
Qed.
Lemma num_minus0 : forall x (v w : bf), num x v -> num 0 w -> num x (Bminus mode_NE v w).
Proof.
  intros x v w H1 H2. pose proof H1 as [F1 E1]. pose proof H2 as [F2 E2]. destruct (minus_fin prec emax _ _ v w F1 F2) as [F E].
  - rewrite E1, E2, Rminus_0_r. exact (num_small _ _ H1).
  - split; [exact F|]. rewrite E, E1, E2, Rminus_0_r. exact (num_rnd _ _ H1).
Qed.
Lemma num_plus0 : forall x (v w : bf), num x v -> num 0 w -> num x (Bplus mode_NE v w).
Proof.
  intros x v w H1 H2. pose proof H1 as [F1 E1]. pose proof H2 as [F2 E2]. destruct (plus_fin prec emax _ _ v w F1 F2) as [F E].
  - rewrite E1, E2, Rplus_0_r. exact (num_small _ _ H1).
  - split; [exact F|]. rewrite E, E1, E2, Rplus_0_r. exact (num_rnd _ _ H1).
Qed.
Lemma num_0plus : forall x (v w : bf), num 0 v -> num x w -> num x (Bplus mode_NE v w).
Proof.
  intros x v w H1 H2. pose proof H1 as [F1 E1]. pose proof H2 as [F2 E2]. destruct (plus_fin prec emax _ _ v w F1 F2) as [F E].
  - rewrite E1, E2, Rplus_0_l. exact (num_small _ _ H2).
  - split; [exact F|]. rewrite E, E1, E2, Rplus_0_l. exact (num_rnd _ _ H2).
Qed.
Lemma num_mult0 : forall (v w : bf), is_finite v = true -> num 0 w -> num 0 (Bmult mode_NE v w).
Proof.
  intros v w F1 [F2 E2]. destruct (mult_fin prec emax _ _ v w F1 F2) as [F E].
  - rewrite E2, Rmult_0_r. apply small_0.
  - split; [exact F|]. rewrite E, E2, Rmult_0_r. apply rnd_0.
Qed.
Lemma num_1mult : forall x (v w : bf), num 1 v -> num x w -> num x (Bmult mode_NE v w).
Proof.
  intros x v w [F1 E1] H2. pose proof H2 as [F2 E2]. destruct (mult_fin prec emax _ _ v w F1 F2) as [F E].
  - rewrite E1, E2, Rmult_1_l. exact (num_small _ _ H2).
  - split; [exact F|]. rewrite E, E1, E2, Rmult_1_l. exact (num_rnd _ _ H2).
Qed.
Lemma num_div0 : forall (v w : bf), num 0 v -> B2R w <> 0 -> num 0 (Bdiv mode_NE v w).
Proof.
  intros v w [F1 E1] N. destruct (div_fin prec emax _ _ v w F1 N) as [F E].
  - rewrite E1. unfold Rdiv. rewrite Rmult_0_l. apply small_0.
  - split; [exact F|]. rewrite E, E1. unfold Rdiv. rewrite Rmult_0_l. apply rnd_0.
Qed.
Lemma num_inf0 : forall (v : bf) s, num 0 v -> num 0 (Bdiv mode_NE v (B754_infinity s)).
Proof. intros v s [F E]. destruct v as [s'|s'| |s' m e H]; try discriminate F; split; reflexivity. Qed.
Lemma num_eqb : forall x (v w : bf), num x v -> num x w -> Beqb v w = true.
Proof. intros x v w [F1 E1] [F2 E2]. apply eqb_R; congruence. Qed.
Lemma eqb_num : forall x (v w : bf), num x w -> Beqb v w = true -> num x v.
Proof.
  intros x v w [F E] Q. assert (FV : is_finite v = true) by (destruct v as [s|s| |s m e H], w as [s'|s'| |s' m' e' H']; try reflexivity; try discriminate F; try discriminate Q; destruct s; discriminate Q).
  split; [exact FV|]. apply eqb_R in Q; congruence.
Qed.
Lemma num_le : forall (v w : bf) b, is_finite v = true -> is_finite w = true -> Rabs (B2R v) <= b -> Rabs (B2R w) <= b -> fmt prec emax (2 * b) -> 2 * b < bpow radix2 emax ->
  (is_finite (Bminus mode_NE v w) = true /\ Rabs (B2R (Bminus mode_NE v w)) <= 2 * b) /\
  (is_finite (Bplus mode_NE v w) = true /\ Rabs (B2R (Bplus mode_NE v w)) <= 2 * b).
Proof.
  intros v w b F1 F2 L1 L2 FB S.
  assert (M : Rabs (B2R v - B2R w) <= 2 * b) by (apply Rabs_le_inv in L1, L2; apply Rabs_le; lra).
  assert (P : Rabs (B2R v + B2R w) <= 2 * b) by (apply Rabs_le_inv in L1, L2; apply Rabs_le; lra).
  split.
  - destruct (minus_fin prec emax _ _ v w F1 F2) as [F E]; [eapply small_fmt_bound; eassumption|]. split; [exact F|]. rewrite E. apply rnd_abs_le; assumption.
  - destruct (plus_fin prec emax _ _ v w F1 F2) as [F E]; [eapply small_fmt_bound; eassumption|]. split; [exact F|]. rewrite E. apply rnd_abs_le; assumption.
Qed.
End Num.

Section FRest.
Variable acosf : float32 -> float32.
Let A := ieee acosf.
Local Existing Instance A.
Variables X Y : R.

Definition at_xy (x y : R) (v : Vec2) : Prop := num x (vx v : float32) /\ num y (vy v : float32).
Lemma vsub_same : forall x y v w, at_xy x y v -> at_xy x y w -> at_xy 0 0 (vsub v w).
Proof. intros x y v w [H1 H2] [H3 H4]. unfold A. split; cbn [vsub vx vy fsub ieee]; eapply num_minus; eassumption. Qed.
Lemma vsub_0 : forall x y v w, at_xy x y v -> at_xy 0 0 w -> at_xy x y (vsub v w).
Proof. intros x y v w [H1 H2] [H3 H4]. unfold A. split; cbn [vsub vx vy fsub ieee]; eapply num_minus0; eassumption. Qed.
Lemma vadd_0 : forall x y v w, at_xy x y v -> at_xy 0 0 w -> at_xy x y (vadd v w).
Proof. intros x y v w [H1 H2] [H3 H4]. unfold A. split; cbn [vadd vx vy fadd ieee]; eapply num_plus0; eassumption. Qed.
Lemma vadd_0l : forall x y v w, at_xy 0 0 v -> at_xy x y w -> at_xy x y (vadd v w).
Proof. intros x y v w [H1 H2] [H3 H4]. unfold A. split; cbn [vadd vx vy fadd ieee]; eapply num_0plus; eassumption. Qed.
Lemma vscale_0 : forall (k : float32) w, is_finite k = true -> at_xy 0 0 w -> at_xy 0 0 (vscale k w).
Proof. intros k w F [H3 H4]. unfold A. split; cbn [vscale vx vy fmul ieee]; apply num_mult0; assumption || exact _. Qed.
Lemma vdiv_0 : forall (k : float32) w, B2R k <> 0 -> at_xy 0 0 w -> at_xy 0 0 (vdiv w k).
Proof. intros k w F [H3 H4]. unfold A. split; cbn [vdiv vx vy fdiv ieee]; apply num_div0; assumption || exact _. Qed.
Lemma vzero_0 : at_xy 0 0 vzero.
Proof. split; split; reflexivity. Qed.
Lemma veqb_xy : forall x y v w, at_xy x y v -> at_xy x y w -> veqb v w = true.
Proof. intros x y v w [H1 H2] [H3 H4]. apply andb_true_intro. split; [exact (num_eqb 24 128 x _ _ H1 H3)|exact (num_eqb 24 128 y _ _ H2 H4)]. Qed.
Lemma xy_veqb : forall x y v w, at_xy x y w -> veqb v w = true -> at_xy x y v.
Proof.
  intros x y v w [H1 H2] Q. unfold veqb, A in Q. cbn [feqb ieee] in Q. apply andb_prop in Q. destruct Q as [Q1 Q2].
  split; eapply eqb_num; eassumption.
Qed.
Lemma magnitude_0 : forall v, at_xy 0 0 v -> num 0 (magnitude v : float32).
Proof.
  intros v [[F1 E1] [F2 E2]]. unfold magnitude, A. cbn [fhypot ieee]. unfold b_hypot.
  assert (I1 : forall x : float32, is_finite x = true -> is_inf x = false) by (intros []; try reflexivity; discriminate).
  unfold A in *. change (F (Arith := ieee acosf)) with float32 in *. rewrite (I1 _ F1), (I1 _ F2). cbn [orb].
  destruct (f2d_fin _ F1) as [G1 K1]. destruct (f2d_fin _ F2) as [G2 K2]. rewrite E1 in K1. rewrite E2 in K2.
  assert (S : num 0 (Bplus mode_NE (Bmult mode_NE (b32_to_b64 (vx v)) (b32_to_b64 (vx v))) (Bmult mode_NE (b32_to_b64 (vy v)) (b32_to_b64 (vy v))))).
  { apply num_plus0; try exact _; apply num_mult0; try exact _; try assumption; split; assumption. }
  destruct S as [S1 S2]. destruct (sqrt_fin 53 1024 _ _ _ S1) as [F E]; [rewrite S2; apply Rle_refl|].
  rewrite S2, sqrt_0, rnd_0 in E. destruct (d2f_fin _ F) as [F' E']; [rewrite E; apply small_0|].
  split; [exact F'|]. rewrite E', E. apply rnd_0.
Qed.
Lemma distance_0 : forall x y v w, at_xy x y v -> at_xy x y w -> num 0 (distance v w : float32).
Proof. intros x y v w H1 H2. apply magnitude_0. eapply vsub_same; eassumption. Qed.

Lemma interp_v_xy : forall x y v w (r : float32), at_xy x y v -> at_xy x y w -> is_nan r = false -> at_xy x y (interp_v v w r).
Proof.
  intros x y v w r H1 H2 N. unfold interp_v. apply vadd_0; [exact H1|]. apply vscale_0; [apply (clamp_unit acosf r N)|]. eapply vsub_same; eassumption.
Qed.
Lemma interp_v_from0 : forall x y v w, at_xy 0 0 v -> at_xy x y w -> at_xy x y (interp_v v w f1).
Proof.
  intros x y v w H1 H2. unfold interp_v. apply vadd_0l; [exact H1|].
  assert (C : clamp01 f1 = f1) by (destruct (f1_fin acosf) as [F E]; apply clamp_id; split; [exact F|]; unfold A; rewrite E; lra).
  rewrite C. destruct (vsub_0 _ _ _ _ H2 H1) as [K1 K2]. unfold A.
  split; cbn [vscale vx vy fmul ieee]; apply num_1mult; try exact _; try assumption; apply f1_fin.
Qed.

(** *** The tip *)
Definition calm_tip (t : TipState) : Prop :=
  at_xy X Y (t_pos t) /\ at_xy 0 0 (t_vel t) /\ at_xy 0 0 (t_acc t).
Definition within (b : R) (t : float64) : Prop := is_finite t = true /\ Rabs (B2R t) <= b.

Lemma bound_fmt : forall k, (0 <= k < 120)%Z -> fmt 24 128 (2 * bpow radix2 k) /\ fmt 53 1024 (2 * bpow radix2 k) /\
  2 * bpow radix2 k < bpow radix2 128 /\ 2 * bpow radix2 k < bpow radix2 1024 /\ 2 * bpow radix2 k = bpow radix2 (k + 1).
Proof.
  intros k K. assert (E : 2 * bpow radix2 k = bpow radix2 (k + 1)) by (rewrite bpow_plus; cbn; lra). rewrite E.
  repeat split; try (apply fmt_bpow; [reflexivity|lia]); apply bpow_lt; lia.
Qed.
Lemma delta_fin : forall (a b : float64) k, (0 <= k < 120)%Z -> within (bpow radix2 k) a -> within (bpow radix2 k) b ->
  is_finite (d2f (dsub a b) : float32) = true.
Proof.
  intros a b k K [F1 L1] [F2 L2]. unfold A. cbn [d2f dsub ieee]. destruct (bound_fmt k K) as (K1 & K2 & K3 & K4 & K5).
  destruct (num_le 53 1024 _ _ a b _ F1 F2 L1 L2 K2 K4) as [[M1 M2] _]. apply d2f_fin; [exact M1|].
  eapply small_fmt_bound; [reflexivity|exact K1|exact K3|exact M2].
Qed.

Definition ordinary_spring (p : PositionParams) : Prop :=
  is_finite (pp_drag p : float32) = true /\ B2R (pp_spring p : float32) <> 0.
Lemma tip_calm : forall p s anchor (t : float64) k, (0 <= k < 120)%Z -> ordinary_spring p -> calm_tip s -> at_xy X Y anchor ->
  within (bpow radix2 k) (t_time s) -> within (bpow radix2 k) t -> calm_tip (tip_update p s anchor t) /\ t_time (tip_update p s anchor t) = t.
Proof.
  intros p s anchor t k K [O1 O2] (P & V & C) AN T1 T2. pose proof (delta_fin t (t_time s) k K T2 T1) as DF.
  unfold tip_update. match type of DF with is_finite ?x = true => set (delta := x) in * end.
  assert (AC : at_xy 0 0 (vsub (vdiv (vsub anchor (t_pos s)) (pp_spring p)) (vscale (pp_drag p) (t_vel s)))).
  { eapply vsub_same; [apply vdiv_0; [exact O2|]; eapply vsub_same; eassumption|apply vscale_0; assumption]. }
  assert (VC : at_xy 0 0 (vadd (t_vel s) (vscale delta (vsub (vdiv (vsub anchor (t_pos s)) (pp_spring p)) (vscale (pp_drag p) (t_vel s)))))).
  { apply vadd_0; [exact V|apply vscale_0; assumption]. }
  split; [|reflexivity]. split; [|split]; cbn [t_pos t_vel t_acc]; [|exact VC|exact AC].
  apply vadd_0; [exact P|]. apply vscale_0; assumption.
Qed.

Lemma interp_t_within : forall (a b : float64) (r : float32), within (bpow radix2 100) a -> within (bpow radix2 100) b -> unit32 r ->
  within (bpow radix2 102) (interp_t a b r).
Proof.
  intros a b r [F1 L1] [F2 L2] U. unfold A in *. unfold interp_t. rewrite (clamp_id acosf r U). cbn [dadd dmul dsub f2d ieee].
  destruct U as (FR & U). destruct (f2d_fin r FR) as [G2 E2]. rewrite <- E2 in U.
  destruct (bound_fmt 100 ltac:(lia)) as (_ & K2 & _ & K4 & K5). destruct (bound_fmt 101 ltac:(lia)) as (_ & K2' & _ & K4' & K5').
  destruct (num_le 53 1024 _ _ b a _ F2 F1 L2 L1 K2 K4) as [[M1 M2] _]. rewrite K5 in M2. change (100 + 1)%Z with 101%Z in M2.
  set (d := Bminus mode_NE b a) in *. set (q := b32_to_b64 r) in *.
  assert (FB : fmt 53 1024 (bpow radix2 101)) by (apply fmt_bpow; [reflexivity|lia]).
  assert (P : Rabs (B2R d * B2R q) <= bpow radix2 101).
  { rewrite Rabs_mult, (Rabs_pos_eq (B2R q)) by apply U. pose proof (Rabs_pos (B2R d)). nra. }
  destruct (mult_fin 53 1024 _ _ d q M1 G2) as [F3 E3]; [eapply small_fmt_bound; [reflexivity|exact FB|apply bpow_lt; lia|exact P]|].
  assert (L3 : Rabs (B2R (Bmult mode_NE d q)) <= bpow radix2 101) by (rewrite E3; apply rnd_abs_le; [reflexivity|exact FB|exact P]).
  assert (L1' : Rabs (B2R a) <= bpow radix2 101) by (eapply Rle_trans; [exact L1|apply bpow_le; lia]).
  destruct (num_le 53 1024 _ _ a _ _ F1 F3 L1' L3 K2' K4') as [_ [M3 M4]]. rewrite K5' in M4. split; assumption.
Qed.

Lemma within_mono : forall a b (t : float64), (a <= b)%Z -> within (bpow radix2 a) t -> within (bpow radix2 b) t.
Proof. intros a b t L [F1 L1]. split; [exact F1|]. eapply Rle_trans; [exact L1|apply bpow_le; exact L]. Qed.

Lemma path_calm : forall p v w (ta tb : float64) n, (1 <= n < INT_MAX)%Z -> ordinary_spring p -> at_xy X Y v -> at_xy X Y w ->
  within (bpow radix2 100) ta -> within (bpow radix2 100) tb ->
  forall k j s sf out, (j + k <= S (Z.to_nat n))%nat -> calm_tip s -> within (bpow radix2 102) (t_time s) ->
  path_loop p s v ta w tb n (Z.of_nat j) k = (sf, out) ->
  (calm_tip sf /\ within (bpow radix2 102) (t_time sf)) /\ Forall calm_tip out.
Proof.
  intros p v w ta tb n N O PV PW WA WB. induction k as [|k IH]; intros j s sf out J T TS H; cbn [path_loop] in H.
  - injection H as <- <-. auto.
  - replace (Z.of_nat j + 1)%Z with (Z.of_nat (S j)) in H by lia. pose proof (ratio_fin n j ltac:(lia) ltac:(lia)) as (U & _).
    change (fdiv (fofZ (Z.of_nat j)) (fofZ n)) with (ratio n j) in H.
    pose proof (interp_t_within ta tb (ratio n j) WA WB U) as WT.
    assert (NN : is_nan (ratio n j) = false) by (destruct U as [U _]; destruct (ratio n j); try reflexivity; discriminate U).
    destruct (tip_calm p s (interp_v v w (ratio n j)) _ 102 ltac:(lia) O T (interp_v_xy _ _ _ _ _ PV PW NN) TS WT) as [T' TT].
    set (s' := tip_update _ _ _ _) in *. clearbody s'. destruct (path_loop _ _ _ _ _ _ n (Z.of_nat (S j)) k) as [sf' o] eqn:E.
    injection H as <- <-. rewrite <- TT in WT. destruct (IH (S j) s' sf' o ltac:(lia) T' WT E) as [K1 K2]. split; [exact K1|constructor; assumption].
Qed.
Lemma along_calm : forall p s v w (ta tb : float64) n sf out, ordinary_spring p -> at_xy X Y v -> at_xy X Y w ->
  within (bpow radix2 100) ta -> within (bpow radix2 100) tb -> calm_tip s -> within (bpow radix2 102) (t_time s) ->
  update_along_path p s v ta w tb n = Ret (sf, out) ->
  (calm_tip sf /\ within (bpow radix2 102) (t_time sf)) /\ Forall calm_tip out.
Proof.
  intros p s v w ta tb n sf out O PV PW WA WB T TS H. unfold update_along_path in H. destruct (Z.leb_spec INT_MAX n); [discriminate H|].
  apply ret_inj in H. destruct (Z_le_gt_dec n 0) as [NZ|NZ].
  - replace (Z.to_nat n) with 0%nat in H by lia. cbn [path_loop] in H. injection H as <- <-. auto.
  - eapply (path_calm p v w ta tb n ltac:(lia) O PV PW WA WB (Z.to_nat n) 1); [lia|exact T|exact TS|exact H].
Qed.

(** The end of the stroke: the first candidate is already within the stopping distance. *)
Lemma end_calm : forall p s anchor (delta : float64) k (stop : float32) sf out, ordinary_spring p -> at_xy X Y anchor -> calm_tip s ->
  within (bpow radix2 102) (t_time s) -> within (bpow radix2 100) delta -> is_finite stop = true -> 0 < B2R stop ->
  model_end_of_stroke p s anchor delta k stop = (sf, out) -> calm_tip sf /\ out = [].
Proof.
  intros p s anchor delta [|k] stop sf out O PA T TS WD FS SP H; cbn [model_end_of_stroke] in H; [injection H as <- <-; auto|].
  assert (WT : within (bpow radix2 103) (dadd (t_time s) delta)).
  { unfold A. cbn [dadd ieee]. destruct (bound_fmt 102 ltac:(lia)) as (_ & K2 & _ & K4 & K5). apply (within_mono 100 102) in WD; [|lia].
    destruct TS as [F1 L1], WD as [F2 L2]. destruct (num_le 53 1024 _ _ _ _ _ F1 F2 L1 L2 K2 K4) as [_ M]. rewrite K5 in M. exact M. }
  apply (within_mono 102 103) in TS; [|lia].
  destruct (tip_calm p s anchor _ 103 ltac:(lia) O T PA TS WT) as [T' _]. set (c := tip_update _ _ _ _) in *. clearbody c.
  assert (L : fltb (distance (t_pos s) (t_pos c)) stop = true).
  { destruct (distance_0 X Y (t_pos s) (t_pos c)) as [F E]; [apply T|apply T'|]. unfold A in *. cbn [fltb ieee]. apply ltb_R; [exact F|exact FS|]. rewrite E. exact SP. }
  rewrite L in H. injection H as <- <-. auto.
Qed.

(** *** The stylus history *)
Definition calm (r : Result) : Prop := at_xy X Y (r_pos r) /\ at_xy 0 0 (r_vel r) /\ at_xy 0 0 (r_acc r).
Definition trim_in : forall p (raw raw' : list Result) x, stylus_trim p raw = Ret raw' -> In x raw' -> In x raw.
Proof. intros p raw raw' x H I1. apply trim_suffix in H. destruct H as [pre ->]. apply in_or_app. right. exact I1. Qed.

(** The last input remembered has the time [t]. *)
Definition latest (t : float64) (raw : list Result) : Prop := forall b, back raw = Some b -> r_time b = t.
Lemma back_snoc : forall {T} (l : list T) x, back (l ++ [x]) = Some x.
Proof. intros T l x. unfold back. induction l as [|a l IH]; [reflexivity|]. destruct l; [reflexivity|exact IH]. Qed.

Definition stylus_apart (t0 t : float64) : Prop := within (bpow radix2 100) t0 /\ within (bpow radix2 100) t /\
  (B2R t0 = B2R t \/ bpow radix2 (-149) <= Rabs (B2R t - B2R t0)).
Lemma dt_nonzero : forall t0 t : float64, stylus_apart t0 t -> deqb t t0 = false -> B2R (d2f (dsub t t0) : float32) <> 0.
Proof.
  intros t0 t ([F0 L0] & [F1 L1] & S) D. unfold A in *. cbn [deqb ieee] in D. apply eqb_false_R in D; [|assumption|assumption].
  destruct S as [S|S]; [congruence|]. cbn [d2f dsub ieee].
  destruct (bound_fmt 100 ltac:(lia)) as (K1 & K2 & K3 & K4 & K5).
  destruct (num_le 53 1024 _ _ t t0 _ F1 F0 L1 L0 K2 K4) as [[M1 M2] _].
  destruct (minus_fin 53 1024 _ _ t t0 F1 F0) as [_ E].
  { eapply small_fmt_bound; [reflexivity|exact K2|exact K4|]. apply Rabs_le_inv in L0, L1. apply Rabs_le. lra. }
  destruct (d2f_fin _ M1) as [_ E']; [eapply small_fmt_bound; [reflexivity|exact K1|exact K3|exact M2]|].
  rewrite E', E. assert (G : forall p e, Prec_gt_0 p -> (3 - e - p <= -149)%Z -> forall x, bpow radix2 (-149) <= Rabs x -> bpow radix2 (-149) <= Rabs (rnd p e x)).
  { intros p e PG LE x LX. assert (FM : fmt p e (bpow radix2 (-149))) by (apply fmt_bpow; assumption). destruct (Rle_lt_dec 0 x).
    - rewrite Rabs_pos_eq in LX by lra. rewrite Rabs_pos_eq by (apply rnd_ge0; [exact PG|lra]). apply rnd_ge_fmt; assumption.
    - rewrite Rabs_left in LX by lra. rewrite Rabs_left1 by (apply rnd_le0; [exact PG|lra]). rewrite <- rnd_opp. apply rnd_ge_fmt; [exact PG|exact FM|lra]. }
  intros Z. assert (B : bpow radix2 (-149) <= 0); [|pose proof (bpow_gt_0 radix2 (-149)); lra].
  rewrite <- (Rabs_R0), <- Z. apply G; [reflexivity|lia|]. apply G; [reflexivity|lia|exact S].
Qed.

Lemma stylus_calm : forall sm pos (t : float64) pr ti o sm' (t0 : float64), validate_stylus (sm_params sm) = OkStatus ->
  Forall calm (s_raw (sm_state sm)) -> at_xy X Y pos -> latest t0 (s_raw (sm_state sm)) -> (s_raw (sm_state sm) = [] \/ stylus_apart t0 t) ->
  stylus_update sm pos t pr ti o = Ret sm' ->
  Forall calm (s_raw (sm_state sm')) /\ latest t (s_raw (sm_state sm')).
Proof.
  intros sm pos t pr ti o sm' t0 V F P LT SA H. split.
  - unfold stylus_update in H. destruct (negb _ && _ && _ && _); [apply ret_inj in H; subst sm'; constructor|].
    match type of H with (let '(vel, acc) := ?e in _) = _ => assert (VA : at_xy 0 0 (fst e) /\ at_xy 0 0 (snd e)); [|destruct e as [vel acc]] end.
    { destruct (back (s_raw (sm_state sm))) as [b|] eqn:B; [|split; exact vzero_0]. rewrite (LT b B).
      apply back_in in B. rewrite Forall_forall in F. destruct (F b B) as (B1 & B2 & _).
      destruct (deqb (Arith := A) t t0) eqn:D; cbn [negb]; [split; exact vzero_0|]. destruct SA as [SA|SA]; [rewrite SA in B; destruct B|].
      pose proof (dt_nonzero t0 t SA D) as N. cbn [fst snd].
      assert (V1 : at_xy 0 0 (vdiv (vsub pos (r_pos b)) (d2f (Arith := A) (dsub (Arith := A) t t0)))) by (apply vdiv_0; [exact N|eapply vsub_same; eassumption]).
      split; [exact V1|]. apply vdiv_0; [exact N|]. eapply vsub_same; eassumption. }
    destruct VA as [V1 V2]. bind_inv H. apply ret_inj in H. subst sm'. cbn [sm_state s_raw]. rewrite Forall_forall in *.
    intros r I1. apply (trim_in _ _ _ _ E) in I1. apply in_app_or in I1. destruct I1 as [I1|[<-|[]]]; [auto|]. split; [|split]; assumption.
  - destruct (raw_step _ _ _ _ _ _ _ V H) as [[E _]|(NE & x & pre & E & _ & E1 & _)]; intros b B.
    + rewrite E in B. discriminate B.
    + destruct (exists_last NE) as (l & y & EL). rewrite EL in B, E. rewrite back_snoc in B. apply some_inj in B. subst b.
      rewrite app_assoc in E. apply app_inj_tail in E. destruct E as [_ ->]. exact E1.
Qed.

Lemma interp_calm : forall fuel a b (v : float32) r, calm a -> calm b -> is_nan v = false -> interp_result fuel a b v = Ret r -> calm r.
Proof.
  intros fuel a b v r (A1 & A2 & A3) (B1 & B2 & B3) N H. apply interp_result_inv in H. destruct H as (H1 & H2 & H3 & _).
  unfold calm. rewrite H1, H2, H3. split; [|split]; apply interp_v_xy; assumption.
Qed.
Lemma query_calm : forall fuel sm tip n r, Forall calm (s_raw (sm_state sm)) -> s_raw (sm_state sm) <> [] ->
  stylus_query fuel sm tip n = Ret r -> calm r.
Proof.
  intros fuel sm tip n r F NE H. rewrite Forall_forall in F.
  destruct (query_eq fuel sm tip n) as [[E _]|(_ & o & E & O)]; [contradiction|].
  rewrite E in H. destruct o as [x| |] eqn:EO; cbn [obind] in H; try discriminate H. apply ret_inj in H. subst r. change (calm x).
  destruct O as [(p & QP & E0)|(_ & r1 & R1 & E0)]; symmetry in E0.
  - pose proof (projection_ratio acosf _ _ _ _ QP) as N. apply query_projection_in in QP. destruct QP as [Q1 Q2].
    eapply interp_calm; [apply F; exact Q1|apply F; exact Q2|exact N|exact E0].
  - apply ret_inj in E0. subst x. apply F. exact R1.
Qed.

(** *** Mitigation *)
Definition still (l : list SpeedSample) : Prop := Forall (fun s => num 0 (ss_speed s : float32)) l.
Definition finite_bounds (p : LoopParams) : Prop := is_finite (lp_speed_lower p : float32) = true /\ is_finite (lp_speed_upper p : float32) = true /\
  unit32 (lp_strength_lower p) /\ unit32 (lp_strength_upper p).
Lemma sum_still : forall l (s0 : float32), still l -> num 0 s0 -> num 0 (fold_left (fun sum s => fadd sum (ss_speed s)) l s0 : float32).
Proof.
  induction l as [|s l IH]; intros s0 S H; [exact H|]. cbn [fold_left]. apply IH; [exact (Forall_inv_tail S)|].
  unfold A. cbn [fadd ieee]. apply num_plus0; [exact H|exact (Forall_inv S)].
Qed.
Lemma count_pos : forall z, (1 <= z)%Z -> let x := binary_normalize 24 128 prec_gt_0_32 prec_lt_emax_32 mode_NE z 0 false in
  (is_finite x = true /\ 1 <= B2R x) \/ x = B754_infinity false.
Proof.
  intros z Z x. assert (E : F2R (Float radix2 z 0) = IZR z) by (unfold F2R; cbn; ring).
  pose proof (binary_normalize_correct 24 128 _ _ mode_NE z 0 false) as K. cbv zeta in K. fold x in K. rewrite E in K.
  change (SpecFloat.fexp 24 128) with (SpecFloat.fexp 24 128) in K.
  destruct (Rlt_bool _ _).
  - left. destruct K as (K1 & K2 & _). split; [exact K2|]. rewrite K1. change (1 <= r32 (IZR z)). apply rnd_ge_fmt; [reflexivity|apply (fmt_IZR 24 128 1); lia|apply IZR_le; exact Z].
  - right. rewrite overflow_NE in K. apply B2SF_inf in K. rewrite K. f_equal. apply Rlt_bool_false. apply IZR_le. lia.
Qed.
Lemma average_still : forall l, still l -> l <> [] -> num 0 (average_speed l : float32).
Proof.
  intros l S NE. unfold average_speed. pose proof (sum_still l f0 S ltac:(split; reflexivity)) as K.
  set (sum := fold_left _ l f0) in *. clearbody sum. unfold A. cbn [fdiv fofZ ieee].
  match goal with |- num 0 (Bdiv _ _ ?x) => set (cnt := x) end.
  assert (CP : (is_finite cnt = true /\ 1 <= B2R cnt) \/ cnt = B754_infinity false).
  { apply (count_pos (Z.of_nat (List.length l))). destruct l; [congruence|cbn [List.length]; lia]. }
  destruct CP as [[F L]| ->].
  - apply num_div0; [exact K|lra].
  - apply num_inf0. exact K.
Qed.
Lemma div_not_nan : forall x y : float32, is_finite x = true -> is_nan y = false -> is_nan (Bdiv mode_NE x y) = true -> exists s, y = B754_zero s.
Proof.
  intros x y FX NY N. destruct y as [s|s| |s m e B]; try discriminate NY; [exists s; reflexivity| |].
  - destruct x; try discriminate FX; discriminate N.
  - exfalso. pose proof (Bdiv_correct 24 128 _ _ mode_NE x (B754_finite s m e B) (B2R_finite_neq0 _ _ s m e B)) as K. destruct (Rlt_bool _ _).
    + destruct K as (_ & K & _). rewrite FX in K. destruct (Bdiv mode_NE x _); try discriminate N. discriminate K.
    + rewrite overflow_NE in K. apply B2SF_inf in K. rewrite K in N. discriminate N.
Qed.
Lemma minus_not_nan : forall x y : float32, is_finite x = true -> is_finite y = true -> is_nan (Bminus mode_NE x y) = false.
Proof.
  intros x y FX FY. pose proof (Bminus_correct 24 128 _ _ mode_NE x y FX FY) as K. destruct (Rlt_bool _ _).
  - destruct K as (_ & K & _). destruct (Bminus mode_NE x y); try reflexivity. discriminate K.
  - destruct K as (K & _). rewrite overflow_NE in K. apply B2SF_inf in K. rewrite K. reflexivity.
Qed.
Lemma value_still : forall p l, (lp_enabled p = true -> finite_bounds p) -> still l -> is_nan (loop_value p l : float32) = false.
Proof.
  intros p l FB S. unfold loop_value. destruct l as [|s l]; [reflexivity|]. destruct (lp_enabled p) eqn:EN; cbn [negb]; [|reflexivity].
  destruct (FB eq_refl) as (F1 & F2 & U1 & U2). pose proof (average_still (s :: l) S ltac:(discriminate)) as [FA EA].
  set (av := average_speed (s :: l)) in *. clearbody av.
  assert (N : is_nan (clamp01 (inverse_lerp (lp_speed_lower p) (lp_speed_upper p) av) : float32) = false).
  { assert (K : is_nan (inverse_lerp (lp_speed_lower p) (lp_speed_upper p) av : float32) = false).
    { unfold inverse_lerp. destruct (feqb _ f0) eqn:Q; [reflexivity|]. unfold A in *. cbn [fdiv fsub ieee feqb] in *.
      pose proof (minus_not_nan _ _ F2 F1) as M1.
      destruct (minus_fin 24 128 _ _ (av : float32) (lp_speed_lower p : float32) FA F1) as [M2 _].
      { apply small_bound with (x := lp_speed_lower p : float32); [reflexivity|]. rewrite EA, Rminus_0_l, Rabs_Ropp. apply Rle_refl. }
      destruct (is_nan (Bdiv mode_NE _ _)) eqn:DN; [|reflexivity]. exfalso. apply div_not_nan in DN; [|exact M2|exact M1].
      revert Q DN M1. generalize (Bminus mode_NE (lp_speed_upper p : float32) (lp_speed_lower p : float32)). intros x Q [s0 ->] _. discriminate Q. }
    pose proof (clamp_unit acosf _ K) as [FC _]. unfold A in *. destruct (clamp01 _); try reflexivity; discriminate FC. }
  pose proof (interp_unit acosf _ _ _ U1 U2 N) as [FI _]. unfold A in *. destruct (interp_f _ _ _); try reflexivity; discriminate FI.
Qed.

(** *** The results *)
Lemma loop_trim_suffix : forall p (t : float64) l, exists pre, l = pre ++ loop_trim p t l.
Proof.
  intros p t. induction l as [|s l [pre IH]]; [exists []; reflexivity|]. cbn [loop_trim]. destruct (_ && _).
  - exists (s :: pre). cbn [app]. rewrite <- IH. reflexivity.
  - exists []. reflexivity.
Qed.
Lemma loop_still : forall lm v (t : float64) lm' x, still (l_samples lm) -> at_xy 0 0 v -> (lp_enabled (l_params lm) = true -> finite_bounds (l_params lm)) ->
  loop_update lm v t = (lm', x) -> still (l_samples lm') /\ is_nan (x : float32) = false /\ l_params lm' = l_params lm /\
    (lp_enabled (l_params lm) = false -> x = f1).
Proof.
  intros lm v t lm' x S V FB H. unfold loop_update in H. destruct (lp_enabled (l_params lm)) eqn:EN; cbn [negb] in H.
  - assert (K : still (loop_trim (l_params lm) t (l_samples lm ++ [mkSpeed (magnitude v) t]))).
    { destruct (loop_trim_suffix (l_params lm) t (l_samples lm ++ [mkSpeed (magnitude v) t])) as [pre E].
      assert (S2 : still (l_samples lm ++ [mkSpeed (magnitude v) t])).
      { apply Forall_app. split; [exact S|]. constructor; [|constructor]. apply magnitude_0. exact V. }
      rewrite E in S2. apply Forall_app in S2. apply S2. }
    injection H as <- <-. cbn [l_samples l_params]. split; [exact K|]. split; [|split; [reflexivity|discriminate]].
    unfold loop_get. cbn [l_params l_samples]. apply value_still; [intros _; apply FB; reflexivity|exact K].
  - injection H as <- <-. auto.
Qed.

Lemma make_calm : forall tip r, calm_tip tip -> calm (make_result tip r).
Proof. intros tip r (T1 & T2 & T3). split; [|split]; assumption. Qed.
Lemma model_stylus_loop_calm : forall fuel sm, Forall calm (s_raw (sm_state sm)) ->
  forall tips lm (v : float32) pt lm' out, Forall calm_tip tips -> still (l_samples lm) ->
  (lp_enabled (l_params lm) = true -> finite_bounds (l_params lm)) -> is_nan v = false ->
  (s_raw (sm_state sm) <> [] \/ lp_enabled (l_params lm) = false /\ v = f1) ->
  model_stylus_loop fuel tips sm lm v pt = Ret (lm', out) -> Forall calm out /\ still (l_samples lm').
Proof.
  intros fuel sm F. induction tips as [|tip rest IH]; intros lm v pt lm' out T S FB N C H; cbn [model_stylus_loop] in H.
  - apply ret_inj in H. injection H as <- <-. auto.
  - pose proof (Forall_inv T) as T1. pose proof (Forall_inv_tail T) as T4. bind_inv H. bind_inv H. rename x into r0, x0 into r.
    destruct (loop_update lm (r_vel r) (t_time tip)) as [l1 v1] eqn:LU. bind_inv H. destruct x as [l2 o2]. apply ret_inj in H. injection H as <- <-.
    assert (CR : calm r).
    { destruct C as [C|[_ ->]].
      - assert (R0 : calm r0) by (eapply query_calm; [exact F|exact C|exact E]).
        eapply interp_calm; [exact R0|apply make_calm; exact T1|exact N|exact E0].
      - destruct (s_raw (sm_state sm)) as [|z zs] eqn:RAW.
        + destruct (query_eq fuel sm tip (get_stroke_normal tip pt)) as [[_ Q]|[Q _]]; [|congruence].
          rewrite Q in E. apply ret_inj in E. subst r0. apply interp_result_inv in E0. destruct E0 as (H1 & H2 & H3 & _).
          destruct (make_calm tip result_no_info T1) as (M1 & M2 & M3).
          unfold calm. rewrite H1, H2, H3. split; [|split]; apply interp_v_from0; try assumption; exact vzero_0.
        + assert (R0 : calm r0) by (eapply query_calm; [rewrite RAW; exact F|rewrite RAW; discriminate|exact E]).
          eapply interp_calm; [exact R0|apply make_calm; exact T1|exact N|exact E0]. }
    destruct (loop_still lm (r_vel r) (t_time tip) l1 v1 S (proj1 (proj2 CR)) FB LU) as (L1 & L2 & L3 & L4).
    destruct (IH l1 v1 (t_time tip) l2 o2 T4 L1) as [K1 K2]; [rewrite L3; exact FB|exact L2| |exact E1|split; [constructor; assumption|exact K2]].
    destruct C as [C|[C _]]; [left; exact C|right]. rewrite L3. split; [exact C|exact (L4 C)].
Qed.
Lemma model_stylus_calm : forall fuel sm tips lm pt lm' out, Forall calm (s_raw (sm_state sm)) -> Forall calm_tip tips -> still (l_samples lm) ->
  (lp_enabled (l_params lm) = true -> finite_bounds (l_params lm)) ->
  (s_raw (sm_state sm) <> [] \/ lp_enabled (l_params lm) = false) ->
  model_stylus fuel tips sm lm pt = Ret (lm', out) -> Forall calm out /\ still (l_samples lm').
Proof.
  intros fuel sm tips lm pt lm' out F T S FB C H. unfold model_stylus in H.
  eapply model_stylus_loop_calm; [exact F|exact T|exact S|exact FB|exact (value_still _ _ FB S)| |exact H].
  destruct C as [C|C]; [left; exact C|right]. split; [exact C|]. unfold loop_get, loop_value. rewrite C. destruct (l_samples lm); reflexivity.
Qed.

(** *** Parameters *)
Lemma gt0_f_F : forall (v : float32) l, validate_gt0_f (A := A) v l = OkStatus -> is_finite v = true /\ 0 < B2R v.
Proof.
  intros v l H. unfold validate_gt0_f in H. apply and_then_ok in H. destruct H as [H1 H2].
  apply (finite_f_F acosf) in H1. split; [exact H1|]. unfold A in H2. cbn [fleb ieee] in H2. rewrite f0_eq in H2.
  destruct (Bleb v (B754_zero false)) eqn:E; [discriminate H2|].
  destruct (Rlt_le_dec 0 (B2R v)) as [L|L]; [exact L|].
  apply (leb_R 24 128 v (B754_zero false) H1 eq_refl) in L. congruence.
Qed.
Lemma spring_ok : forall p, validate_params p = OkStatus -> ordinary_spring (p_position p).
Proof.
  intros p V. destruct (validate_params_parts p V) as (_ & VP & _). unfold validate_position in VP.
  apply and_then_ok in VP. destruct VP as [_ VP]. apply and_then_ok in VP. destruct VP as [V1 V2].
  apply gt0_f_F in V1, V2. split; [apply V2|]. destruct V1 as [_ V1]. apply Rgt_not_eq. exact V1.
Qed.
Lemma stop_ok : forall p, validate_params p = OkStatus -> is_finite (sp_stop (p_sampling p) : float32) = true /\ 0 < B2R (sp_stop (p_sampling p) : float32).
Proof.
  intros p V. destruct (validate_params_parts p V) as (_ & _ & VP & _). unfold validate_sampling in VP.
  apply and_then_ok in VP. destruct VP as [_ VP]. apply and_then_ok in VP. destruct VP as [V1 _]. apply gt0_f_F in V1. exact V1.
Qed.
Lemma rate_ok : forall p, validate_params p = OkStatus -> @ordinary_params acosf p -> within (bpow radix2 100) (ddiv (dofZ 1) (sp_rate (p_sampling p))).
Proof.
  intros p V (_ & L & _). unfold A in *. cbn [ddiv dofZ ieee]. destruct (ofZ_64 1 eq_refl) as [F1 E1].
  pose proof (bpow_gt_0 radix2 (-100)) as P. set (rt := sp_rate (p_sampling p)) in *.
  assert (B : Rabs (B2R (binary_normalize 53 1024 prec_gt_0_64 prec_lt_emax_64 mode_NE 1 0 false) / B2R (rt : float64)) <= bpow radix2 100).
  { rewrite E1. unfold Rdiv. rewrite Rmult_1_l, Rabs_pos_eq by (left; apply Rinv_0_lt_compat; lra).
    replace (bpow radix2 100) with (/ bpow radix2 (-100)) by (rewrite <- bpow_opp; reflexivity). apply Rinv_le_contravar; assumption. }
  assert (FB : fmt 53 1024 (bpow radix2 100)) by (apply fmt_bpow; [reflexivity|lia]).
  destruct (div_fin 53 1024 _ _ _ (rt : float64) F1 ltac:(lra)) as [F E]; [eapply small_fmt_bound; [reflexivity|exact FB|apply bpow_lt; lia|exact B]|].
  split; [exact F|]. rewrite E. apply rnd_abs_le; [reflexivity|exact FB|exact B].
Qed.
Lemma bounds_ok : forall p, validate_params p = OkStatus -> @ordinary_params acosf p -> lp_enabled (pp_loop (p_position p)) = true -> finite_bounds (pp_loop (p_position p)).
Proof.
  intros p V (_ & _ & L) EN. destruct (L EN) as (L1 & L2 & L3 & L4). split; [exact L1|]. split; [exact L2|].
  destruct (validate_params_parts p V) as (_ & VP & _). unfold validate_position in VP. apply and_then_ok in VP. destruct VP as [VL _].
  unfold validate_loop in VL. rewrite EN in VL. cbn [negb] in VL. destruct (_ || _) in VL; [discriminate VL|].
  destruct (fltb _ _ || _ || _) eqn:Q in VL; [discriminate VL|]. clear VL. apply orb_false_elim in Q. destruct Q as [Q Q3]. apply orb_false_elim in Q. destruct Q as [Q1 Q2].
  unfold A in *. cbn [fltb ieee] in *. destruct (f1_fin acosf) as [G1 G2]. destruct (f0_fin acosf) as [G3 G4].
  apply (ltb_false_R 24 128) in Q1; [|assumption|assumption]. apply (ltb_false_R 24 128) in Q2; [|assumption|assumption]. apply (ltb_false_R 24 128) in Q3; [|assumption|assumption].
  rewrite G2 in Q2. rewrite G4 in Q3. split; (split; [assumption|]).
  - split; [exact (Rle_trans _ _ _ Q3 Q1)|exact Q2].
  - split; [exact Q3|exact (Rle_trans _ _ _ Q1 Q2)].
Qed.

(** *** The invariant *)
Definition pred_calm (o : option Predictor) : Prop :=
  match o with Some (PStrokeEnd _ _ (Some c)) => at_xy X Y c | _ => True end.
Record frest (p : StrokeModelParams) (es : list entry) (seen : list Input) (c : core) : Prop := mkFR {
  fr_tip : calm_tip (co_tip c) /\ within (bpow radix2 102) (t_time (co_tip c));
  fr_raw : Forall calm (s_raw (co_s c));
  fr_latest : exists l i, seen = l ++ [i] /\ latest (i_time i) (s_raw (co_s c));
  fr_some : sy_normal (p_stylus p) = true -> s_raw (co_s c) <> [];
  fr_l : still (co_l c);
  fr_pred : pred_calm (co_pred c);
  fr_last : at_xy X Y (li_corrected (co_last c)) /\ within (bpow radix2 100) (i_time (li_input (co_last c)));
  fr_es : Forall (fun e => Forall calm (snd e)) es
}.

Lemma raw_nonempty : forall sm pos (t : float64) pr ti o sm', validate_stylus (sm_params sm) = OkStatus ->
  sy_normal (sm_params sm) = true -> stylus_update sm pos t pr ti o = Ret sm' -> s_raw (sm_state sm') <> [].
Proof.
  intros sm pos t pr ti o sm' V N H. unfold stylus_update in H. rewrite N in H. cbn [negb andb] in H.
  destruct (match back (s_raw (sm_state sm)) with Some _ => _ | None => _ end) as [v a].
  bind_inv H. apply ret_inj in H. subst sm'. cbn [sm_state s_raw]. eapply trim_last; [exact E|]. left. exact N.
Qed.
Lemma normal_on : forall p : StrokeModelParams, validate_params p = OkStatus -> lp_enabled (pp_loop (p_position p)) = true -> sy_normal (p_stylus p) = true.
Proof. intros p V E. unfold validate_params in V. rewrite E in V. destruct (sy_normal (p_stylus p)); [reflexivity|discriminate V]. Qed.
Lemma upd_pred_calm : forall o c (t : float64) o', at_xy X Y c -> upd_pred o c t = Ret o' -> pred_calm o'.
Proof.
  intros [[pp sp l|k]|] c t o' P H; cbn [upd_pred pred_update obind] in H.
  - apply ret_inj in H. subst o'. exact P.
  - bind_inv H. apply ret_inj in H. subst o'. bind_inv E. apply ret_inj in E. subst x. exact I.
  - apply ret_inj in H. subst o'. exact I.
Qed.
Lemma wobble_off : forall w c (t : float64) w' c', wp_enabled (w_params w) = false -> wobble_update w c t = Ret (w', c') -> c' = c.
Proof. intros w c t w' c' E H. unfold wobble_update in H. rewrite E in H. cbn [negb] in H. apply ret_inj in H. congruence. Qed.

Definition restful (p : StrokeModelParams) (seen : list Input) : Prop :=
  @ordinary_params acosf p /\ Forall (fun i => at_xy X Y (i_pos i)) seen /\ Forall (@ordinary_time acosf) seen /\ Sorted (@apart acosf) seen.
Lemma restful_snoc : forall p seen i, restful p (seen ++ [i]) -> restful p seen /\ at_xy X Y (i_pos i) /\ within (bpow radix2 100) (i_time i) /\
  (forall l j, seen = l ++ [j] -> stylus_apart (i_time j) (i_time i)).
Proof.
  intros p seen i (O & F1 & F2 & S). apply Forall_app in F1, F2. destruct F1 as [F1 G1], F2 as [F2 G2]. apply Forall_inv in G1, G2.
  assert (SS : Sorted (@apart acosf) seen /\ forall l j, seen = l ++ [j] -> @apart acosf j i).
  { destruct seen as [|a seen]; [split; [constructor|intros [|] j Q; discriminate Q]|].
    assert (NE : a :: seen <> []) by discriminate. destruct (exists_last NE) as (l & j & E). rewrite E in S |- *. apply sorted_init in S. destruct S as [S1 S2].
    split; [exact S1|]. intros l' j' Q. apply app_inj_tail in Q. destruct Q as [_ <-]. exact S2. }
  destruct SS as [S1 S2]. split; [split; [exact O|auto]|]. split; [exact G1|]. split; [exact G2|].
  intros l j E. pose proof (S2 l j E) as AP. rewrite E in F2. apply Forall_app in F2. destruct F2 as [_ F2]. apply Forall_inv in F2.
  split; [exact F2|]. split; [exact G2|exact AP].
Qed.

(** The stylus state after one more input that counts. *)
Lemma stylus_next : forall p m seen i c sm, validate_params p = OkStatus -> sm_params (m_stylus m) = p_stylus p ->
  Forall calm (s_raw (sm_state (m_stylus m))) -> (exists l j, seen = l ++ [j] /\ latest (i_time j) (s_raw (sm_state (m_stylus m)))) ->
  at_xy X Y c -> (forall l j, seen = l ++ [j] -> stylus_apart (i_time j) (i_time i)) ->
  stylus_update (m_stylus m) c (i_time i) (i_pressure i) (i_tilt i) (i_orient i) = Ret sm ->
  Forall calm (s_raw (sm_state sm)) /\ latest (i_time i) (s_raw (sm_state sm)) /\ (sy_normal (p_stylus p) = true -> s_raw (sm_state sm) <> []).
Proof.
  intros p m seen i c sm V C3 F (l & j & E & L) P AP SU. assert (VS : validate_stylus (sm_params (m_stylus m)) = OkStatus) by (rewrite C3; apply (validate_params_parts p V)).
  destruct (stylus_calm _ _ _ _ _ _ _ _ VS F P L (or_intror (AP l j E)) SU) as [K1 K2]. split; [exact K1|]. split; [exact K2|].
  intros N. eapply raw_nonempty; [exact VS|rewrite C3; exact N|exact SU].
Qed.
Lemma recalled : forall p sm lm, validate_params p = OkStatus -> l_params lm = pp_loop (p_position p) ->
  (sy_normal (p_stylus p) = true -> s_raw (sm_state sm) <> []) -> s_raw (sm_state sm) <> [] \/ lp_enabled (l_params lm) = false.
Proof.
  intros p sm lm V L H. rewrite L. destruct (lp_enabled (pp_loop (p_position p))) eqn:E; [left; apply H; apply normal_on; assumption|right; reflexivity].
Qed.

Lemma frest_state : forall fuel hist s es seen, after_seen fuel hist s es seen ->
  exists m rs, run fuel modeler0 hist = Ret (m, rs) /\ tracks s m /\ good m /\ cons m /\
    (forall p last, m_params m = Some p -> m_last m = Some last -> restful p seen -> frest p es seen (core_of p m last)).
Proof.
  intros fuel hist s es seen AS.
  refine (after_seen_state fuel (fun _ => True) (fun p es seen c => restful p seen -> frest p es seen c) _ _ _ hist s es seen AS (call_in_true _)).
  - intros p m i m' out _ MP V G U EV (O & F & FT & _). apply Forall_inv in F, FT.
    destruct (upd_down fuel m i m' out U EV) as (p' & sm & pred & MQ & _ & _ & SU & UP & -> & ->). assert (p' = p) by congruence. subst p'. clear MQ.
    assert (VS : validate_stylus (sm_params (stylus_reset (m_stylus m) (p_stylus p))) = OkStatus) by apply (validate_params_parts p V).
    destruct (stylus_calm (stylus_reset (m_stylus m) (p_stylus p)) _ _ _ _ _ _ (i_time i) VS ltac:(constructor) F ltac:(discriminate) (or_introl eq_refl) SU) as [K1 K2].
    constructor; cbn [core_of co_w co_tip co_s co_l co_pred co_last m_wobble m_pos m_stylus m_loop m_predictor li_corrected li_input loop_reset l_samples pos_reset pm_state t_pos t_vel t_acc t_time].
    + split; [split; [exact F|split; exact vzero_0]|]. apply (within_mono 100 102); [lia|exact FT].
    + exact K1.
    + exists [], i. split; [reflexivity|exact K2].
    + intros N. eapply raw_nonempty; [exact VS|exact N|exact SU].
    + constructor.
    + destruct (prediction_on p); [|exact I]. eapply upd_pred_calm; [exact F|exact UP].
    + split; [exact F|exact FT].
    + constructor; [|constructor]. constructor; [|constructor]. split; [exact F|split; exact vzero_0].
  - intros p m i m' out es0 seen0 lst last' _ MP V G CP ML J U EV ML' RF.
    apply restful_snoc in RF. destruct RF as (RF & PI & WI & AP). specialize (J RF). destruct J as [[J1 J1'] J2 J3 J4 J5 J6 [J7 J7'] J8].
    destruct RF as (O & _). pose proof O as (OW & _).
    destruct (upd_move fuel m i m' out U EV) as (p' & last0 & w & c & sm & n & tip & tips & pred & lm & MQ & _ & ML0 & DL & WU & SU & NS & UA & UP & MS & ->).
    assert (p' = p) by congruence. subst p'. clear MQ. assert (last0 = lst) by congruence. subst last0. cbn in ML'. apply some_inj in ML'. subst last'.
    destruct CP as (C1 & C2 & C3 & C4). cbn [core_of co_w co_tip co_s co_l co_pred co_last] in *.
    apply wobble_off in WU; [|rewrite C1; exact OW]. subst c.
    destruct (stylus_next p m seen0 i _ sm V C3 J2 J3 PI AP SU) as (S1 & S2 & S3).
    rewrite C2 in UA. destruct (along_calm _ _ _ _ _ _ _ _ _ (spring_ok p V) J7 PI J7' WI J1 J1' UA) as [T1 T2].
    destruct (model_stylus_calm fuel sm tips (m_loop m) (i_time i) lm out S1 T2 J5) as [R1 R2]; [rewrite C4; apply bounds_ok; assumption|eapply recalled; eassumption|exact MS|].
    constructor; cbn [core_of co_w co_tip co_s co_l co_pred co_last m_wobble m_pos m_stylus m_loop m_predictor li_corrected li_input pos_with_state pm_state]; auto.
    + exists seen0, i. split; [reflexivity|exact S2].
    + destruct (prediction_on p); [|exact I]. eapply upd_pred_calm; [exact PI|exact UP].
    + apply Forall_app. split; [exact J8|]. constructor; [exact R1|constructor].
  - intros p m i m' out es0 seen0 lst e _ MP V G CP ML J U NE RF. inversion U; subst; try congruence.
    + rewrite H0 in RF |- *. auto.
    + match goal with HN : number_of_steps _ _ _ _ _ = _ |- _ => rewrite (number_of_steps_traced _ _ _ _ _ _ i H1 HN) in RF |- * end.
      apply restful_snoc in RF. destruct RF as (RF & PI & WI & AP). specialize (J RF). destruct J as [J1 J2 J3 J4 J5 J6 J7 J8].
      destruct RF as (O & _). destruct O as (OW & _). destruct CP as (C1 & C2 & C3 & C4). cbn [core_of co_w co_tip co_s co_l co_pred co_last] in *.
      match goal with HW : wobble_update _ _ _ = _ |- _ => apply wobble_off in HW; [|rewrite C1; exact OW]; subst c end.
      match goal with HS : stylus_update _ _ _ _ _ _ = _ |- _ => destruct (stylus_next p m seen0 i _ sm V C3 J2 J3 PI AP HS) as (S1 & S2 & S3) end.
      constructor; cbn [core_of co_w co_tip co_s co_l co_pred co_last m_wobble m_pos m_stylus m_loop m_predictor] in *; auto.
      exists seen0, i. split; [reflexivity|exact S2].
Qed.
End FRest.

(** ** C37 *)
Definition resting_inputs {acosf : float32 -> float32} (q : Vec2 (A := ieee acosf)) (l : list (Input (A := ieee acosf))) : Prop :=
  Forall (at_place q) l /\ Forall ordinary_time l /\ Sorted apart l.
Definition finite_point {acosf : float32 -> float32} (q : Vec2 (A := ieee acosf)) : Prop :=
  is_finite (vx q : float32) = true /\ is_finite (vy q : float32) = true.

Lemma resting_restful : forall acosf (p : StrokeModelParams (A := ieee acosf)) q l, finite_point q -> ordinary_params p -> resting_inputs q l ->
  restful acosf (B2R (vx q : float32)) (B2R (vy q : float32)) p l.
Proof.
  intros acosf p q l [F1 F2] O (R1 & R2 & R3). split; [exact O|]. split; [|auto]. eapply Forall_impl; [|exact R1].
  intros i H. eapply xy_veqb; [|exact H]. split; split; auto.
Qed.
Lemma calm_stands : forall acosf (q : Vec2 (A := ieee acosf)) r, finite_point q -> calm acosf (B2R (vx q : float32)) (B2R (vy q : float32)) r -> stands q r.
Proof.
  intros acosf q r [F1 F2] (H1 & H2 & H3). split; [|split].
  - eapply veqb_xy; [exact H1|]. split; split; auto.
  - eapply veqb_xy; [exact H2|apply vzero_0].
  - eapply veqb_xy; [exact H3|apply vzero_0].
Qed.

(** If all inputs of the stroke (the rejected Moves that leave a trace included)
    are at [q], every result so far is at [q] and at rest, to the last bit. *)
Theorem C37_float_resting_results : forall acosf (A := ieee acosf) fuel hist s (p : StrokeModelParams (A := ieee acosf)) es (seen : list (Input (A := ieee acosf))) (q : Vec2 (A := ieee acosf)),
  after_seen fuel hist s es seen -> in_stroke s = true -> ps_params s = Some p -> ordinary_params p -> finite_point q -> resting_inputs q seen ->
  Forall (fun e => Forall (stands q) (snd e)) es.
Proof.
  intros acosf A fuel hist s p es seen q AS IS PP O FQ RI. subst A.
  destruct (frest_state acosf (B2R (vx q : float32)) (B2R (vy q : float32)) fuel hist s es seen AS) as (m & rs & R & (T1 & T2 & _) & G & C & J).
  unfold in_stroke in IS. rewrite T2 in IS. destruct (m_last m) as [last|] eqn:ML; [|discriminate IS].
  rewrite T1 in PP. destruct (J p last PP eq_refl (resting_restful _ _ _ _ FQ O RI)) as [_ _ _ _ _ _ _ J8].
  eapply Forall_impl; [|exact J8]. intros e HE. eapply Forall_impl; [|exact HE]. intros r. apply calm_stands. exact FQ.
Qed.

(** So are the results of the next Update. *)
Theorem C37_float_resting_update : forall acosf (A := ieee acosf) fuel hist s (p : StrokeModelParams (A := ieee acosf)) es seen (q : Vec2 (A := ieee acosf)) (i : Input (A := ieee acosf)) rs out,
  after_seen fuel hist s es seen -> ps_params s = Some p -> ordinary_params p -> finite_point q -> at_place q i ->
  (in_stroke s = true -> resting_inputs q (seen ++ [i])) ->
  answers fuel hist [CUpdate i rs] = Ret [RResults OkStatus (rs ++ out)] -> Forall (stands q) out.
Proof.
  intros acosf A fuel hist s p es seen q i rs out AS PP O FQ Q F AN. subst A.
  assert (AF : after fuel hist s) by (destruct AS as (ma & rsa & Ra & Pa & _); exists ma, rsa; auto).
  destruct (frest_state acosf (B2R (vx q : float32)) (B2R (vy q : float32)) fuel hist s es seen AS) as (m0 & rs0 & R0 & (T1 & T2 & _) & G & C & J).
  destruct (accepted_update _ _ _ _ _ _ _ AF AN) as (m & r0 & m' & out' & R & _ & _ & _ & EQ & U & _).
  rewrite R0 in R. injection R as <- <-. apply app_inv_head in EQ. subst out'. rewrite T1 in PP.
  pose proof (g_valid _ G p PP) as V. pose proof (C p PP) as CP0. pose proof O as (OW & _).
  assert (LIVE : forall lst, m_last m0 = Some lst -> restful acosf (B2R (vx q : float32)) (B2R (vy q : float32)) p (seen ++ [i])).
  { intros lst ML. apply resting_restful; [exact FQ|exact O|]. apply F. unfold in_stroke. rewrite T2, ML. reflexivity. }
  eapply Forall_impl; [intros r; apply calm_stands; exact FQ|].
  destruct (i_event i) eqn:EV.
  - destruct (upd_down fuel m0 i m' out U EV) as (p' & sm & pred & MP & _ & _ & _ & _ & -> & _).
    constructor; [|constructor]. split; [|split; apply vzero_0]. cbn [down_result r_pos]. eapply xy_veqb; [|exact Q]. destruct FQ. split; split; auto.
  - destruct (upd_move fuel m0 i m' out U EV) as (p' & lst & w & c & sm & n & tip & tips & pred & lm & MP & _ & ML & DL & WU & SU & NS & UA & UP & MS & _).
    assert (p' = p) by congruence. subst p'. pose proof (LIVE lst ML) as RF. apply restful_snoc in RF. destruct RF as (RF & PI & WI & AP).
    destruct (CP0 ltac:(left; congruence)) as (C1 & C2 & C3 & C4). destruct (J p lst MP ML RF) as [[J1 J1'] J2 J3 J4 J5 J6 [J7 J7'] J8].
    cbn [core_of co_w co_tip co_s co_l co_pred co_last] in *. apply wobble_off in WU; [|rewrite C1; exact OW]. subst c.
    destruct (stylus_next _ _ _ p m0 seen i _ sm V C3 J2 J3 PI AP SU) as (S1 & S2 & S3).
    rewrite C2 in UA. destruct (along_calm _ _ _ _ _ _ _ _ _ _ _ _ (spring_ok _ p V) J7 PI J7' WI J1 J1' UA) as [K1 K2].
    eapply model_stylus_calm; [exact S1|exact K2|exact J5|rewrite C4; apply bounds_ok; assumption|eapply recalled; eassumption|exact MS].
  - destruct (upd_up fuel m0 i m' out U EV) as (p' & lst & n & tip1 & tips1 & tip2 & tips2 & sm & lm & MP & _ & ML & DL & NS & UA & ME & SU & MS & _).
    assert (p' = p) by congruence. subst p'. pose proof (LIVE lst ML) as RF. apply restful_snoc in RF. destruct RF as (RF & PI & WI & AP).
    destruct (CP0 ltac:(left; congruence)) as (C1 & C2 & C3 & C4). destruct (J p lst MP ML RF) as [[J1 J1'] J2 J3 J4 J5 J6 [J7 J7'] J8].
    cbn [core_of co_w co_tip co_s co_l co_pred co_last] in *.
    destruct (stylus_next _ _ _ p m0 seen i _ sm V C3 J2 J3 PI AP SU) as (S1 & S2 & S3).
    rewrite C2 in UA, ME. destruct (along_calm _ _ _ _ _ _ _ _ _ _ _ _ (spring_ok _ p V) J7 PI J7' WI J1 J1' UA) as [[K1 K1'] K2].
    destruct (end_calm _ _ _ _ _ _ _ _ _ _ _ (spring_ok _ p V) PI K1 K1' (rate_ok _ p V O) (proj1 (stop_ok _ p V)) (proj2 (stop_ok _ p V)) ME) as [K3 ->].
    eapply model_stylus_calm; [exact S1| |exact J5|rewrite C4; apply bounds_ok; assumption|eapply recalled; eassumption|exact MS].
    rewrite app_nil_r in *. destruct tips1; [constructor; [exact K3|constructor]|exact K2].
  - destruct (upd_other fuel m0 i m' out z U EV).
Qed.

(** A prediction to the end of the stroke adds nothing: the tip is already there. *)
Lemma predicting_end_F : forall acosf (A := ieee acosf) p l pr, p_prediction p = PredStrokeEnd -> predicting p l pr ->
  exists o, pr = Some (PStrokeEnd (p_position p) (p_sampling p) o).
Proof.
  intros acosf A p l pr P H. subst A. induction H as [|l pr i c pr' H (o & ->) U].
  - unfold make_predictor. rewrite P. eauto.
  - cbn in U. injection U as <-. eauto.
Qed.
Theorem C37_float_resting_prediction : forall acosf (A := ieee acosf) fuel hist s (p : StrokeModelParams (A := ieee acosf)) es seen (q : Vec2 (A := ieee acosf)) rs out,
  after_seen fuel hist s es seen -> ps_params s = Some p -> p_prediction p = PredStrokeEnd -> ordinary_params p -> finite_point q -> resting_inputs q seen ->
  answers fuel hist [CPredict rs] = Ret [RResults OkStatus out] -> out = [].
Proof.
  intros acosf A fuel hist s p es seen q rs out AS P PS O FQ RI AN. subst A.
  assert (AF : after fuel hist s) by (destruct AS as (ma & rsa & Ra & Pa & _); exists ma, rsa; auto).
  destruct (frest_state acosf (B2R (vx q : float32)) (B2R (vy q : float32)) fuel hist s es seen AS) as (m & rs0 & R0 & (T1 & T2 & _) & G & C & J).
  destruct (remembered_state _ _ _ _ _ AS) as (m1 & rs1 & R1 & _ & _ & _ & RM). rewrite R0 in R1. injection R1 as <- <-.
  destruct (accepted_predict _ _ _ _ _ _ AF AN) as (m1 & r0 & m' & R & _ & _ & _ & U). rewrite R0 in R. injection R as <- <-.
  destruct (prd_ok fuel m m' out U) as (p' & pr & last0 & tips & lm & MQ & MPR & ML & PC & MS & _). rewrite T1 in P.
  assert (p' = p) by congruence. subst p'. pose proof (g_valid _ G p P) as V. pose proof (J p last0 MQ ML (resting_restful _ _ _ _ FQ O RI)) as JJ.
  destruct (RM p last0 MQ ML) as (cs & ws & [H1 H2 H3 H4 H5 H6]).
  assert (ON : prediction_on p = true) by (unfold prediction_on; rewrite PS; reflexivity). specialize (H6 ON).
  destruct JJ as [[J1 J1'] J2 J3 J4 J5 J6 [J7 J7'] J8]. cbn [core_of co_w co_s co_last co_l co_pred co_tip] in *. rewrite ON, MPR in *.
  destruct (predicting_end_F _ _ _ _ PS H6) as (o & EO). apply some_inj in EO. subst pr.
  assert (TI : tips = []).
  { cbn [pred_construct] in PC. destruct o as [pos|]; apply ret_inj in PC; subst tips; [|reflexivity].
    destruct (model_end_of_stroke _ _ _ _ _ _) as [t ts] eqn:ME. cbn [snd]. cbn [pred_calm] in J6.
    apply (end_calm _ _ _ _ _ _ _ _ _ _ _ (spring_ok _ p V) J6 J1 J1' (rate_ok _ p V O) (proj1 (stop_ok _ p V)) (proj2 (stop_ok _ p V)) ME). }
  subst tips. unfold model_stylus in MS. cbn [model_stylus_loop] in MS. apply ret_inj in MS. congruence.
Qed.
