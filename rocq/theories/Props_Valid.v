(** * C02, C48: which parameters Reset accepts (IEEE arithmetic). *)
From Coq Require Import ZArith Bool List Reals Lra Lia Psatz String.
From Flocq Require Import Core.Core IEEE754.BinarySingleNaN.
From Verif Require Export Props_API Props_Safe.
Import ListNotations.
Open Scope R_scope.

(** ** Specification: the requirements of params.h *)
Section Spec.
Variable acosf : float32 -> float32.
Let A := ieee acosf.

Definition finite {p e} (x : binary_float p e) : Prop := is_finite x = true.
Definition positive {p e} (x : binary_float p e) : Prop := finite x /\ 0 < B2R x.
Definition nonnegative {p e} (x : binary_float p e) : Prop := finite x /\ 0 <= B2R x.
(** [x <= y], both numbers or infinite. *)
Definition at_most {p e} (x y : binary_float p e) : Prop := Bleb x y = true.

Definition documented_wobble (w : WobbleParams (A := A)) : Prop :=
  wp_enabled w = true ->
  nonnegative (wp_timeout w) /\ nonnegative (wp_floor w) /\ finite (wp_ceiling w) /\ B2R (wp_floor w) <= B2R (wp_ceiling w).
Definition documented_loop (l : LoopParams (A := A)) : Prop :=
  lp_enabled l = true ->
  at_most (B754_zero false) (lp_speed_lower l) /\ at_most (lp_speed_lower l) (lp_speed_upper l) /\
  at_most (B754_zero false) (lp_strength_upper l) /\ at_most (lp_strength_upper l) (lp_strength_lower l) /\
  at_most (lp_strength_lower l) (b32 1 0) /\
  (1 <= lp_min_samples l <= 10000)%Z /\ positive (lp_window l) /\ B2R (lp_window l) <= 10000.
Definition documented_sampling (s : SamplingParams (A := A)) : Prop :=
  positive (sp_rate s) /\ positive (sp_stop s) /\ (1 <= sp_max_iter s <= 1000)%Z /\ (1 <= sp_max_outputs s)%Z /\
  (B2R (sp_max_angle s) = -1 \/ positive (sp_max_angle s) /\ B2R (sp_max_angle s) < B2R b_pi).
Definition documented_stylus (y : StylusParams (A := A)) : Prop :=
  if sy_normal y then (1 <= sy_min_samples y)%Z /\ positive (sy_min_duration y) else (1 <= sy_max_samples y)%Z.
Definition documented_kalman (k : KalmanParams (A := A)) : Prop :=
  positive (kp_process k) /\ positive (kp_measure k) /\ (1 <= kp_min_stable k)%Z /\ (1 <= kp_max_times k)%Z /\
  positive (kp_catchup k) /\ finite (kp_acc_weight k) /\ finite (kp_jerk_weight k) /\ positive (kp_interval k) /\
  let c := kp_conf k in
  (1 <= cp_samples c)%Z /\ positive (cp_max_dist c) /\ nonnegative (cp_min_speed c) /\ finite (cp_max_speed c) /\
  B2R (cp_min_speed c) <= B2R (cp_max_speed c) /\ positive (cp_max_dev c) /\ at_most (B754_zero false) (cp_baseline c) /\ at_most (cp_baseline c) (b32 1 0).
Definition documented (p : StrokeModelParams (A := A)) : Prop :=
  documented_wobble (p_wobble p) /\ documented_loop (pp_loop (p_position p)) /\
  positive (pp_spring (p_position p)) /\ positive (pp_drag (p_position p)) /\
  documented_sampling (p_sampling p) /\ documented_stylus (p_stylus p) /\
  (forall k, p_prediction p = PredKalman k -> documented_kalman k) /\
  (lp_enabled (pp_loop (p_position p)) = true -> sy_normal (p_stylus p) = true).

(** None of the parameters that are in use and only checked by comparing them is NaN. *)
Definition numbers (p : StrokeModelParams (A := A)) : Prop :=
  (lp_enabled (pp_loop (p_position p)) = true ->
   let l := pp_loop (p_position p) in
   is_nan (lp_speed_lower l) = false /\ is_nan (lp_speed_upper l) = false /\ is_nan (lp_strength_lower l) = false /\
   is_nan (lp_strength_upper l) = false /\ is_nan (lp_window l) = false) /\
  (forall k, p_prediction p = PredKalman k -> is_nan (cp_baseline (kp_conf k)) = false).

(** ** Proof *)
Lemma and_then_ok : forall s k, and_then s k = OkStatus <-> s = OkStatus /\ k = OkStatus.
Proof. intros s k. unfold and_then. destruct s; split; intros H; try (destruct H; congruence); try discriminate; auto. Qed.
Lemma if_ok : forall (b : bool) msg k, (if b then InvalidArgument msg else k) = OkStatus <-> b = false /\ k = OkStatus.
Proof. intros b msg k. destruct b; split; intros H; try (destruct H; congruence); try discriminate; auto. Qed.
Lemma finite_f_iff : forall (v : float32) l, validate_finite_f (A := A) v l = OkStatus <-> finite v.
Proof. intros [s|s| |s m e H] l; cbn; unfold finite; cbn; split; congruence. Qed.
Lemma finite_d_iff : forall (v : float64) l, validate_finite_d (A := A) v l = OkStatus <-> finite v.
Proof. intros [s|s| |s m e H] l; cbn; unfold finite; cbn; split; congruence. Qed.
Lemma leb_zero : forall p e (v : binary_float p e), finite v -> (Bleb v (B754_zero false) = false <-> 0 < B2R v).
Proof.
  intros p e v F. rewrite Bleb_correct by (assumption || reflexivity). cbn [B2R].
  destruct (Rle_bool_spec (B2R v) 0); split; intros; try congruence; lra.
Qed.
Lemma ltb_zero : forall p e (v : binary_float p e), finite v -> (Bltb v (B754_zero false) = false <-> 0 <= B2R v).
Proof.
  intros p e v F. rewrite Bltb_correct by (assumption || reflexivity). cbn [B2R].
  destruct (Rlt_bool_spec (B2R v) 0); split; intros; try congruence; lra.
Qed.
Lemma gt0_f_iff : forall (v : float32) l, validate_gt0_f (A := A) v l = OkStatus <-> positive v.
Proof.
  intros v l. unfold validate_gt0_f. rewrite and_then_ok, if_ok, finite_f_iff. unfold A. cbn [fleb ieee]. rewrite f0_eq.
  unfold positive. split; intros [F H]; (split; [exact F|]); [apply leb_zero; [exact F|apply H]|split; [apply leb_zero; auto|reflexivity]].
Qed.
Lemma gt0_d_iff : forall (v : float64) l, validate_gt0_d (A := A) v l = OkStatus <-> positive v.
Proof.
  intros v l. unfold validate_gt0_d. rewrite and_then_ok, if_ok, finite_d_iff. unfold A. cbn [dleb ieee]. rewrite d0_eq.
  unfold positive. split; intros [F H]; (split; [exact F|]); [apply leb_zero; [exact F|apply H]|split; [apply leb_zero; auto|reflexivity]].
Qed.
Lemma ge0_f_iff : forall (v : float32) l, validate_ge0_f (A := A) v l = OkStatus <-> nonnegative v.
Proof.
  intros v l. unfold validate_ge0_f. rewrite and_then_ok, if_ok, finite_f_iff. unfold A. cbn [fltb ieee]. rewrite f0_eq.
  unfold nonnegative. split; intros [F H]; (split; [exact F|]); [apply ltb_zero; [exact F|apply H]|split; [apply ltb_zero; auto|reflexivity]].
Qed.
Lemma ge0_d_iff : forall (v : float64) l, validate_ge0_d (A := A) v l = OkStatus <-> nonnegative v.
Proof.
  intros v l. unfold validate_ge0_d. rewrite and_then_ok, if_ok, finite_d_iff. unfold A. cbn [dltb ieee]. rewrite d0_eq.
  unfold nonnegative. split; intros [F H]; (split; [exact F|]); [apply ltb_zero; [exact F|apply H]|split; [apply ltb_zero; auto|reflexivity]].
Qed.
Lemma gt0_i_iff : forall v l, validate_gt0_i v l = OkStatus <-> (1 <= v)%Z.
Proof. intros v l. unfold validate_gt0_i. rewrite if_ok, Z.leb_gt. split; intros H; [lia|split; [lia|reflexivity]]. Qed.

Lemma wobble_iff : forall w, validate_wobble (A := A) w = OkStatus <-> documented_wobble w.
Proof.
  intros w. unfold validate_wobble, documented_wobble. destruct (wp_enabled w); cbn [negb]; [|split; [discriminate|reflexivity]].
  rewrite !and_then_ok, if_ok, ge0_d_iff, ge0_f_iff, finite_f_iff.
  split.
  - intros (T & F & C & L & _) _. repeat (split; [assumption|]). apply (ltb_false_R 24 128); [exact C|apply F|exact L].
  - intros H. destruct (H eq_refl) as (T & F & C & L). repeat (split; [assumption|]). split; [|reflexivity].
    apply (ltb_false_R 24 128); [exact C|apply F|exact L].
Qed.

Lemma compare_some : forall p e (x y : binary_float p e), is_nan x = false -> is_nan y = false -> exists c, Bcompare x y = Some c.
Proof.
  intros p e [s|s| |s m x H] [t|t| |t n y K] X Y; try discriminate; cbn;
    repeat match goal with |- context [if ?b then _ else _] => destruct b | |- context [match ?b with _ => _ end] => destruct b end; eauto.
Qed.
Lemma not_lt : forall p e (x y : binary_float p e), is_nan x = false -> is_nan y = false -> (Bltb y x = false <-> at_most x y).
Proof.
  intros p e x y X Y. destruct (compare_some p e x y X Y) as [c E]. unfold at_most.
  change (Bltb y x) with (match Bcompare y x with Some Lt => true | _ => false end).
  change (Bleb x y) with (match Bcompare x y with Some Lt | Some Eq => true | _ => false end).
  rewrite (Bcompare_swap _ _ x y), E. destruct c; cbn; split; congruence.
Qed.
Lemma at_most_numbers : forall p e (x y : binary_float p e), at_most x y -> is_nan x = false /\ is_nan y = false.
Proof. intros p e [s|s| |s m x H] [t|t| |t n y K] L; try discriminate L; auto. Qed.

Lemma loop_iff : forall l : LoopParams (A := A),
  (lp_enabled l = true ->
   is_nan (lp_speed_lower l) = false /\ is_nan (lp_speed_upper l) = false /\ is_nan (lp_strength_lower l) = false /\
   is_nan (lp_strength_upper l) = false /\ is_nan (lp_window l) = false) ->
  (validate_loop (A := A) l = OkStatus <-> documented_loop l).
Proof.
  intros l N. unfold validate_loop, documented_loop. destruct (lp_enabled l); cbn [negb]; [|split; [discriminate|reflexivity]].
  destruct (N eq_refl) as (N1 & N2 & N3 & N4 & N5). clear N.
  rewrite !if_ok, !orb_false_iff. unfold A. cbn [fltb dleb dltb ieee]. rewrite f0_eq, d0_eq. unfold kMaxDiscreteSamples, kMaxSamplingWindow. cbn [dofZ ieee].
  rewrite !(not_lt 24 128) by (assumption || reflexivity). rewrite !Z.ltb_ge.
  assert (W : Bleb (lp_window l) (B754_zero false) = false /\ Bltb (binary_normalize 53 1024 eq_refl eq_refl mode_NE 10000 0 false) (lp_window l) = false <->
    positive (lp_window l) /\ B2R (lp_window l) <= 10000).
  { destruct (ofZ_64 10000 ltac:(reflexivity)) as [F10 E10]. set (T := binary_normalize 53 1024 _ _ mode_NE 10000 0 false) in *.
    split.
    - intros [L1 L2]. apply (not_lt 53 1024) in L2; [|exact N5|destruct T; try discriminate F10; reflexivity].
      assert (FW : finite (lp_window l)).
      { unfold finite. unfold at_most in L2. set (w := lp_window l) in *. clearbody w. change float64 in w. destruct w as [s|[]| |s m e H]; try reflexivity; try discriminate N5; try discriminate L1.
        destruct T as [t|t| |t n y K]; try discriminate F10; discriminate L2. }
      split; [split; [exact FW|apply leb_zero; assumption]|]. rewrite <- E10. apply (leb_R 53 1024); assumption.
    - intros [[F P] L]. split; [apply leb_zero; assumption|]. apply (ltb_false_R 53 1024); [exact F10|exact F|rewrite E10; exact L]. }
  change (@f1 (ieee acosf)) with (b32 1 0). split.
  - intros ((H1 & H2) & ((H3 & H4) & H5) & (H6 & H7) & H8 & _) _. pose proof (proj1 W H8) as [H9 H10]. auto 20.
  - intros H. destruct (H eq_refl) as (H1 & H2 & H3 & H4 & H5 & (H6 & H7) & H8). pose proof (proj2 W H8) as [H9 H10]. auto 20.
Qed.

Lemma sampling_iff : forall s, validate_sampling (A := A) s = OkStatus <-> documented_sampling s.
Proof.
  intros s. unfold validate_sampling, documented_sampling. rewrite !and_then_ok, if_ok, and_then_ok, gt0_d_iff, gt0_f_iff, !gt0_i_iff, Z.ltb_ge.
  unfold kMaxEndOfStrokeMaxIterations.
  assert (M : (if negb (deqb (sp_max_angle s) (dofZ (-1))) then and_then (validate_gt0_d (A := A) (sp_max_angle s) "SamplingParams::max_estimated_angle_to_traverse_per_input")
      (if dleb kPi (sp_max_angle s) then InvalidArgument "SamplingParams::max_estimated_angle_to_traverse_per_input must be less than kPi" else OkStatus)
      else OkStatus) = OkStatus <-> (B2R (sp_max_angle s) = -1 \/ positive (sp_max_angle s) /\ B2R (sp_max_angle s) < B2R b_pi)).
  { generalize (sp_max_angle s). intros a. change float64 in a. assert (G := gt0_d_iff). unfold A in *. cbn [deqb dleb dofZ kPi ieee].
    destruct (ofZ_64 (-1) ltac:(reflexivity)) as [F1 E1]. set (T := binary_normalize 53 1024 _ _ mode_NE (-1) 0 false) in *.
    destruct (Beqb a T) eqn:EB; cbn [negb].
    - split; [intros _; left|reflexivity]. assert (FA : is_finite a = true).
      { destruct a as [u|[]| |u m e H], T as [t|t| |t n y K]; try discriminate F1; try discriminate EB; reflexivity. }
      apply (eqb_R 53 1024) in EB; congruence.
    - rewrite and_then_ok, G, if_ok. split.
      + intros (P & L & _). right. split; [exact P|]. rewrite Bleb_correct in L by (apply P || reflexivity).
        destruct (Rle_bool_spec (B2R b_pi) (B2R a)); [discriminate L|lra].
      + intros [E|[P L]].
        * exfalso. assert (FA : is_finite a = true) by (destruct a as [u|u| |u m e H]; cbn in E; try reflexivity; lra).
          apply (eqb_false_R 53 1024) in EB; [|exact FA|exact F1]. congruence.
        * split; [exact P|]. split; [|reflexivity]. rewrite Bleb_correct by (apply P || reflexivity).
          destruct (Rle_bool_spec (B2R b_pi) (B2R a)); [lra|reflexivity]. }
  rewrite M. tauto.
Qed.

Lemma stylus_iff : forall y, validate_stylus (A := A) y = OkStatus <-> documented_stylus y.
Proof.
  intros y. unfold validate_stylus, documented_stylus. destruct (sy_normal y); rewrite ?and_then_ok, !gt0_i_iff, ?gt0_d_iff; reflexivity.
Qed.

Lemma kalman_iff : forall k : KalmanParams (A := A), is_nan (cp_baseline (kp_conf k)) = false ->
  (validate_kalman (A := A) k = OkStatus <-> documented_kalman k).
Proof.
  intros k N. unfold validate_kalman, documented_kalman. cbv zeta.
  rewrite !and_then_ok, if_ok, and_then_ok, if_ok, orb_false_iff, !gt0_d_iff, !gt0_f_iff, !gt0_i_iff, !finite_f_iff, !ge0_f_iff.
  unfold A. cbn [fltb ieee]. rewrite f0_eq. change (@f1 (ieee acosf)) with (b32 1 0).
  pose proof (not_lt 24 128 (B754_zero false) (cp_baseline (kp_conf k)) eq_refl N) as L0.
  pose proof (not_lt 24 128 (cp_baseline (kp_conf k)) (b32 1 0) N eq_refl) as L1.
  split.
  - intros (H1 & H2 & H3 & H4 & H5 & H6 & H7 & H8 & H9 & H10 & H11 & H12 & H13 & H14 & (H15 & H16) & _).
    repeat (split; [assumption|]). split; [apply (ltb_false_R 24 128); [exact H12|apply H11|exact H13]|].
    split; [exact H14|]. split; [apply L0; exact H15|apply L1; exact H16].
  - intros (H1 & H2 & H3 & H4 & H5 & H6 & H7 & H8 & H9 & H10 & H11 & H12 & H13 & H14 & H15 & H16).
    repeat (split; [assumption|]). split; [apply (ltb_false_R 24 128); [exact H12|apply H11|exact H13]|].
    split; [exact H14|]. split; [|reflexivity]. split; [apply L0; exact H15|apply L1; exact H16].
Qed.

Lemma params_iff : forall p, numbers p -> (validate_params (A := A) p = OkStatus <-> documented p).
Proof.
  intros p [N1 N2]. unfold validate_params, documented. rewrite if_ok, !and_then_ok, wobble_iff, sampling_iff, stylus_iff.
  unfold validate_position. rewrite !and_then_ok, !gt0_f_iff, loop_iff by exact N1.
  assert (K : validate_prediction (A := A) (p_prediction p) = OkStatus <-> forall k, p_prediction p = PredKalman k -> documented_kalman k).
  { unfold validate_prediction. destruct (p_prediction p) as [|k|] eqn:E.
    - split; [discriminate|reflexivity].
    - rewrite kalman_iff by (apply N2; reflexivity). split; [intros H k' Q; injection Q as <-; exact H|auto].
    - split; [discriminate|reflexivity]. }
  rewrite K. assert (L : lp_enabled (pp_loop (p_position p)) && negb (sy_normal (p_stylus p)) = false <->
    (lp_enabled (pp_loop (p_position p)) = true -> sy_normal (p_stylus p) = true)).
  { destruct (lp_enabled _), (sy_normal _); cbn; split; auto; discriminate || (intros H; specialize (H eq_refl); discriminate H). }
  rewrite L. tauto.
Qed.

Lemma finite_number : forall p e (x : binary_float p e), is_finite x = true -> is_nan x = false.
Proof. intros p e [s|s| |s m x H] F; try discriminate F; reflexivity. Qed.
Lemma documented_numbers : forall p, documented p -> numbers p.
Proof.
  intros p (_ & L & _ & _ & _ & _ & K & _). split.
  - intros E l. destruct (L E) as (H1 & H2 & H3 & H4 & H5 & _ & [H6 _] & _). apply at_most_numbers in H1, H2, H3, H4, H5.
    repeat (split; [tauto|]). unfold l, finite in *. exact (finite_number _ _ _ H6).
  - intros k E. destruct (K k E) as (_ & _ & _ & _ & _ & _ & _ & _ & _ & _ & _ & _ & _ & _ & H & _). apply at_most_numbers in H. tauto.
Qed.

(** The -1 placeholders among the parameters that are in use. *)
Definition placeholder (p : StrokeModelParams (A := A)) : Prop :=
  B2R (sp_rate (p_sampling p)) = -1 \/ B2R (sp_stop (p_sampling p)) = -1 \/
  (wp_enabled (p_wobble p) = true /\
   (B2R (wp_timeout (p_wobble p)) = -1 \/ B2R (wp_floor (p_wobble p)) = -1 \/ B2R (wp_ceiling (p_wobble p)) = -1)) \/
  (sy_normal (p_stylus p) = true /\ (sy_min_samples (p_stylus p) = (-1)%Z \/ B2R (sy_min_duration (p_stylus p)) = -1)) \/
  (let l := pp_loop (p_position p) in lp_enabled l = true /\
   (B2R (lp_speed_lower l) = -1 \/ B2R (lp_speed_upper l) = -1 \/ B2R (lp_strength_lower l) = -1 \/ B2R (lp_strength_upper l) = -1 \/
    B2R (lp_window l) = -1 \/ lp_min_samples l = (-1)%Z)) \/
  (exists k, p_prediction p = PredKalman k /\
   (B2R (kp_process k) = -1 \/ B2R (kp_measure k) = -1 \/ B2R (kp_catchup k) = -1 \/ B2R (kp_interval k) = -1 \/
    B2R (cp_max_dist (kp_conf k)) = -1 \/ B2R (cp_min_speed (kp_conf k)) = -1 \/ B2R (cp_max_speed (kp_conf k)) = -1 \/
    B2R (cp_max_dev (kp_conf k)) = -1)).

Lemma pos_not_m1 : forall p e (x : binary_float p e), positive x -> B2R x <> -1.
Proof. intros p e x [_ P] E. rewrite E in P. lra. Qed.
Lemma nonneg_not_m1 : forall p e (x : binary_float p e), nonnegative x -> B2R x <> -1.
Proof. intros p e x [_ P] E. rewrite E in P. lra. Qed.
Lemma m1_finite : forall p e (x : binary_float p e), B2R x = -1 -> is_finite x = true.
Proof. intros p e [s|s| |s m x H] E; cbn in E; try reflexivity; lra. Qed.
Lemma m1_number : forall p e (x : binary_float p e), B2R x = -1 -> is_nan x = false.
Proof. intros p e x E. apply finite_number, m1_finite, E. Qed.
(** The value of a number at least zero, possibly infinite, is not -1. *)
Lemma at_least_not_m1 : forall p e (x : binary_float p e), at_most (B754_zero false) x -> B2R x <> -1.
Proof.
  intros p e x L E. assert (F : is_finite x = true) by (destruct x; cbn in E; try reflexivity; lra).
  unfold at_most in L. rewrite Bleb_correct in L by (assumption || reflexivity). cbn [B2R] in L.
  destruct (Rle_bool_spec 0 (B2R x)); [rewrite E in *; lra|discriminate L].
Qed.
Lemma at_most_trans0 : forall p e (x y : binary_float p e), at_most (B754_zero false) x -> at_most x y -> at_most (B754_zero false) y.
Proof.
  intros p e x y H1 H2. destruct (at_most_numbers _ _ _ _ H2) as [NX NY].
  destruct x as [s|[]| |s m ex H], y as [t|[]| |t n ey K]; try discriminate H1; try discriminate H2; try discriminate NX; try discriminate NY; try reflexivity.
  - destruct t; [|reflexivity]. discriminate H2.
  - destruct s; [discriminate H1|]. destruct t; [discriminate H2|reflexivity].
Qed.

Lemma valid_no_placeholder : forall p : StrokeModelParams (A := A),
  (lp_enabled (pp_loop (p_position p)) = true ->
   is_nan (lp_speed_lower (pp_loop (p_position p))) = false /\ is_nan (lp_strength_upper (pp_loop (p_position p))) = false) ->
  validate_params p = OkStatus -> ~ placeholder p.
Proof.
  intros p N V P. unfold validate_params in V. rewrite if_ok, !and_then_ok, wobble_iff, sampling_iff, stylus_iff in V.
  destruct V as (_ & W & V & (S1 & S2 & _) & Y & K). unfold validate_position in V. rewrite !and_then_ok in V. destruct V as [L _].
  destruct P as [P|[P|[(E & P)|[(E & P)|[(E & P)|(k & E & P)]]]]].
  - revert P. apply pos_not_m1. exact S1.
  - revert P. apply pos_not_m1. exact S2.
  - destruct (W E) as (W1 & W2 & W3 & W4). destruct P as [P|[P|P]].
    + revert P. apply nonneg_not_m1. exact W1.
    + revert P. apply nonneg_not_m1. exact W2.
    + destruct W2 as [_ W2]. rewrite P in W4. lra.
  - unfold documented_stylus in Y. rewrite E in Y. destruct Y as [Y1 Y2]. destruct P as [P|P]; [lia|]. revert P. apply pos_not_m1. exact Y2.
  - destruct (N E) as [N1 N2]. unfold validate_loop in L. rewrite E in L. cbn [negb] in L. rewrite !if_ok, !orb_false_iff, !Z.ltb_ge in L.
    destruct L as ((L1 & L2) & ((L3 & L4) & L5) & (L6 & L7) & (L8 & L9) & _).
    unfold A in L1, L2, L3, L4, L5, L8, L9. cbn [fltb dleb dltb ieee] in L1, L2, L3, L4, L5, L8, L9. rewrite f0_eq in L2, L5. rewrite d0_eq in L8.
    apply (not_lt 24 128) in L2; [|reflexivity|exact N1]. apply (not_lt 24 128) in L5; [|reflexivity|exact N2].
    destruct P as [P|[P|[P|[P|[P|P]]]]].
    + revert P. apply at_least_not_m1. exact L2.
    + pose proof (m1_number _ _ _ P) as N3. apply (not_lt 24 128) in L1; [|exact N1|exact N3].
      revert P. apply at_least_not_m1. exact (at_most_trans0 _ _ _ _ L2 L1).
    + pose proof (m1_number _ _ _ P) as N3. apply (not_lt 24 128) in L3; [|exact N2|exact N3].
      revert P. apply at_least_not_m1. exact (at_most_trans0 _ _ _ _ L5 L3).
    + revert P. apply at_least_not_m1. exact L5.
    + pose proof (m1_finite _ _ _ P) as FW. revert P. apply pos_not_m1. split; [exact FW|]. apply leb_zero; assumption.
    + lia.
  - unfold validate_prediction in K. rewrite E in K. unfold validate_kalman in K. cbv zeta in K.
    rewrite !and_then_ok, if_ok, and_then_ok, !gt0_d_iff, !gt0_f_iff, !gt0_i_iff, !finite_f_iff, !ge0_f_iff in K.
    destruct K as (K1 & K2 & K3 & K4 & K5 & K6 & K7 & K8 & K9 & K10 & K11 & K12 & K13 & K14 & _).
    destruct P as [P|[P|[P|[P|[P|[P|[P|P]]]]]]]; try (revert P; apply pos_not_m1; assumption).
    + revert P. apply nonneg_not_m1. exact K11.
    + apply (ltb_false_R 24 128) in K13; [|exact K12|apply K11]. destruct K11 as [_ K11]. rewrite P in K13. lra.
Qed.
End Spec.

(** ** C02 *)
(** Every documented choice is accepted, whatever the history; and nothing else,
    as long as the parameters are numbers. *)
Theorem C02_documented_accepted : forall acosf (A := ieee acosf) fuel hist s p,
  after fuel hist s -> documented acosf p -> answers fuel hist [CReset p] = Ret [RStatus OkStatus].
Proof.
  intros acosf A fuel hist s p AF D. subst A. rewrite (C02_reset_history_independent _ _ _ p AF).
  apply (params_iff acosf p (documented_numbers acosf p D)) in D. cbn. unfold reset_params. rewrite D. reflexivity.
Qed.
Theorem C02_accepted_iff_documented : forall acosf (A := ieee acosf) fuel hist s p,
  after fuel hist s -> numbers acosf p -> (answers fuel hist [CReset p] = Ret [RStatus OkStatus] <-> documented acosf p).
Proof.
  intros acosf A fuel hist s p AF N. split; [|apply (C02_documented_accepted acosf fuel hist s p AF)]. subst A.
  rewrite (C02_reset_history_independent _ _ _ p AF). intros H. apply (params_iff acosf p N).
  cbn in H. unfold reset_params in H. destruct (validate_params p) as [|msg|msg] eqn:V; [reflexivity|..]; cbn in H; discriminate H.
Qed.

(** ** C48 *)
(** With one of the -1 placeholders left among the parameters in use, Reset fails
    whatever the other parameters are (unless mitigation is enabled with NaN bounds,
    which the code compares but does not check: C02_nan_refuted). *)
Theorem C48_placeholder_rejected : forall acosf (A := ieee acosf) fuel hist s p,
  after fuel hist s -> placeholder acosf p ->
  (lp_enabled (pp_loop (p_position p)) = true ->
   is_nan (lp_speed_lower (pp_loop (p_position p))) = false /\ is_nan (lp_strength_upper (pp_loop (p_position p))) = false) ->
  exists msg, answers fuel hist [CReset p] = Ret [RStatus (InvalidArgument msg)].
Proof.
  intros acosf A fuel hist s p AF P N. destruct (C02_reset_status fuel hist s p AF) as [H|H]; [exfalso|exact H]. subst A.
  rewrite (C02_reset_history_independent _ _ _ p AF) in H. revert P. apply valid_no_placeholder; [exact N|].
  cbn in H. unfold reset_params in H. destruct (validate_params p) as [|msg|msg] eqn:V; [reflexivity|..]; cbn in H; discriminate H.
Qed.

(** Starting from default-constructed parameters, the sampling parameters must be
    set, and the smoothing parameters must be set or switched off. *)
Theorem C48_default_rejected : forall acosf (A := ieee acosf) fuel hist s p,
  after fuel hist s -> p_sampling p = default_sampling \/ p_wobble p = default_wobble ->
  exists msg, answers fuel hist [CReset p] = Ret [RStatus (InvalidArgument msg)].
Proof.
  intros acosf A fuel hist s p AF E. destruct (C02_reset_status fuel hist s p AF) as [H|H]; [exfalso|exact H]. subst A.
  rewrite (C02_reset_history_independent _ _ _ p AF) in H.
  assert (V : validate_params p = OkStatus).
  { cbn in H. unfold reset_params in H. destruct (validate_params p) as [|msg|msg] eqn:V; [reflexivity|..]; cbn in H; discriminate H. }
  unfold validate_params in V. rewrite if_ok, !and_then_ok, wobble_iff, sampling_iff in V. destruct V as (_ & W & _ & (S1 & _) & _).
  destruct E as [E|E].
  - rewrite E in S1. apply pos_not_m1 in S1. apply S1. apply (ofZ_64 (-1)). reflexivity.
  - rewrite E in W. destruct (W eq_refl) as [W1 _]. apply nonneg_not_m1 in W1. apply W1. apply (ofZ_64 (-1)). reflexivity.
Qed.
