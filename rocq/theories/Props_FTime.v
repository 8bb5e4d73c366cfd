(** * C23: the times of results in IEEE arithmetic. *)
From Coq Require Import ZArith Bool List Sorted Reals Lra Lia Psatz.
From Flocq Require Import Core.Core IEEE754.BinarySingleNaN Sterbenz.
From Verif Require Export Props_Float.
Import ListNotations.
Open Scope R_scope.

(** ** Specification *)
(** The difference of the two times is itself a number of type double. *)
Definition exact_gap {acosf : float32 -> float32} (a b : Input (A := ieee acosf)) : Prop :=
  exists d : float64, is_finite d = true /\ B2R d = B2R (i_time b : float64) - B2R (i_time a : float64).

(** Loop mitigation off, or at least no NaN or infinity among the times of these results
    (a strength that is NaN makes the time of a result NaN, see C49_finite_refuted). *)
Definition sound_times {acosf : float32 -> float32} (p : StrokeModelParams (A := ieee acosf)) (out : list (Result (A := ieee acosf))) : Prop :=
  lp_enabled (pp_loop (p_position p)) = false \/ Forall (fun r : Result (A := ieee acosf) => is_finite (r_time r : float64) = true) out.

(** Sufficient for [exact_gap]: time at most doubles from one input to the next. *)
Lemma exact_gap_double : forall acosf (a b : Input (A := ieee acosf)),
  is_finite (i_time a : float64) = true -> is_finite (i_time b : float64) = true ->
  0 <= B2R (i_time a : float64) <= B2R (i_time b : float64) -> B2R (i_time b : float64) <= 2 * B2R (i_time a : float64) ->
  exact_gap a b.
Proof.
  intros acosf a b FA FB L1 L2. unfold exact_gap. set (x := i_time a) in *. set (y := i_time b) in *. clearbody x y. change float64 in x, y.
  exists (Bminus mode_NE y x). destruct (minus_fin 53 1024 _ _ y x FB FA) as [F E].
  { apply small_bound with (x := y); [reflexivity|]. rewrite !Rabs_pos_eq by lra. lra. }
  split; [exact F|]. rewrite E. apply rnd_id. unfold fmt. apply sterbenz; [apply (fexp_correct 53 1024); reflexivity|apply (fexp_monotone 53 1024)|apply fmt_B2R|apply fmt_B2R|lra].
Qed.

(** ** Proof *)
Lemma ofZ_32r : forall z, (Z.abs z <= 2 ^ 31)%Z ->
  is_finite (binary_normalize 24 128 prec_gt_0_32 prec_lt_emax_32 mode_NE z 0 false) = true /\
  B2R (binary_normalize 24 128 prec_gt_0_32 prec_lt_emax_32 mode_NE z 0 false) = r32 (IZR z).
Proof.
  intros z H. assert (E : F2R (Float radix2 z 0) = IZR z) by (unfold F2R; cbn; ring).
  destruct (normalize_fin 24 128 _ _ z 0 false) as [K1 K2].
  - rewrite E. apply small_le32. rewrite <- abs_IZR. apply IZR_le. lia.
  - split; [exact K1|]. rewrite K2, E. reflexivity.
Qed.

Lemma last_cons' : forall {X} (l : list X) a d, last (a :: l) d = last l a.
Proof. intros X l. induction l as [|b l IH]; intros a d; [reflexivity|]. change (last (a :: b :: l) d) with (last (b :: l) d). rewrite !IH. reflexivity. Qed.

(** With normal projection there is an input in memory after each Update. *)
Lemma trim_kept : forall {A : Arith} p raw out, validate_stylus p = OkStatus -> raw <> [] -> stylus_trim p raw = Ret out -> out <> [].
Proof.
  intros A p raw out V. induction raw as [|a raw IH]; intros NE H; [congruence|].
  cbn [stylus_trim] in H. bind_inv H. destruct x; [|apply ret_inj in H; subst out; discriminate].
  destruct raw as [|b raw]; [|apply IH; [discriminate|exact H]]. exfalso.
  unfold should_drop, size_gt in E. unfold validate_stylus in V. destruct (sy_normal p).
  - apply and_then_ok in V. destruct V as [V _]. unfold validate_gt0_i in V.
    destruct (Z.leb_spec (sy_min_samples p) 0); [discriminate V|].
    destruct (Z.ltb_spec (sy_min_samples p) 0); [lia|]. cbn [List.length] in E.
    destruct (Z.ltb_spec (sy_min_samples p) (Z.of_nat 1)); [lia|]. discriminate E.
  - unfold validate_gt0_i in V.
    destruct (Z.leb_spec (sy_max_samples p) 0); [discriminate V|].
    destruct (Z.ltb_spec (sy_max_samples p) 0); [lia|]. cbn [List.length] in E.
    destruct (Z.ltb_spec (sy_max_samples p) (Z.of_nat 1)); [lia|]. discriminate E.
Qed.
Lemma raw_kept : forall {A : Arith} p sm pos t pr ti o sm', validate_params p = OkStatus -> sm_params sm = p_stylus p ->
  lp_enabled (pp_loop (p_position p)) = true -> stylus_update sm pos t pr ti o = Ret sm' -> s_raw (sm_state sm') <> [].
Proof.
  intros A p sm pos t pr ti o sm' V SP L H. assert (N : sy_normal (sm_params sm) = true).
  { rewrite SP. unfold validate_params in V. rewrite L in V. destruct (sy_normal (p_stylus p)); [reflexivity|discriminate V]. }
  assert (VS : validate_stylus (sm_params sm) = OkStatus) by (rewrite SP; apply (validate_params_parts p V)).
  unfold stylus_update in H. rewrite N in H. cbn [negb andb] in H.
  destruct (match back (s_raw (sm_state sm)) with Some _ => _ | None => _ end) as [v a].
  bind_inv H. apply ret_inj in H. subst sm'. cbn [sm_state s_raw]. eapply trim_kept; [exact VS| |exact E].
  intros K. apply app_eq_nil in K. destruct K as [_ K]. discriminate K.
Qed.

Section FTime.
Variable acosf : float32 -> float32.
Let A := ieee acosf.
Local Existing Instance A.

Definition ratio (n : Z) (j : nat) : float32 := Bdiv mode_NE (binary_normalize 24 128 prec_gt_0_32 prec_lt_emax_32 mode_NE (Z.of_nat j) 0 false)
  (binary_normalize 24 128 prec_gt_0_32 prec_lt_emax_32 mode_NE n 0 false).

Lemma ratio_fin : forall n j, (Z.of_nat j <= n)%Z -> (1 <= n <= INT_MAX)%Z ->
  unit32 (ratio n j) /\ B2R (ratio n j) = r32 (r32 (INR j) / r32 (IZR n)) /\ 1 <= r32 (IZR n) /\ 0 <= r32 (INR j) <= r32 (IZR n).
Proof.
  intros n j J N. unfold INT_MAX in N. rewrite INR_IZR_INZ.
  destruct (ofZ_32r n ltac:(lia)) as [F1 E1]. destruct (ofZ_32r (Z.of_nat j) ltac:(lia)) as [F2 E2].
  assert (N1 : 1 <= r32 (IZR n)) by (apply rnd_ge_fmt; [reflexivity|apply (fmt_IZR 24 128 1); lia|apply IZR_le; lia]).
  assert (J0 : 0 <= r32 (IZR (Z.of_nat j))) by (apply rnd_ge0; [reflexivity|apply IZR_le; lia]).
  assert (JN : r32 (IZR (Z.of_nat j)) <= r32 (IZR n)) by (apply rnd_le; [reflexivity|apply IZR_le; lia]).
  assert (Q : 0 <= r32 (IZR (Z.of_nat j)) / r32 (IZR n) <= 1).
  { split; [apply Rmult_le_pos; [lra|left; apply Rinv_0_lt_compat; lra]|]. apply Rmult_le_reg_r with (r32 (IZR n)); [lra|]. unfold Rdiv. rewrite Rmult_assoc, Rinv_l by lra. lra. }
  unfold ratio. destruct (div_fin 24 128 _ _ _ (binary_normalize 24 128 prec_gt_0_32 prec_lt_emax_32 mode_NE n 0 false) F2) as [F3 E3].
  - rewrite E1. lra.
  - rewrite E1, E2. apply small_le32. rewrite Rabs_pos_eq by lra. apply Rle_trans with 1; [lra|apply IZR_le; lia].
  - rewrite E1, E2 in E3. split; [|split; [exact E3|split; [exact N1|lra]]]. split; [exact F3|]. rewrite E3. split.
    + apply rnd_ge0; [reflexivity|lra].
    + apply rnd_le_fmt; [reflexivity|apply (fmt_IZR 24 128 1); lia|lra].
Qed.
Lemma ratio_mono : forall n i j, (i <= j)%nat -> (Z.of_nat j <= n)%Z -> (1 <= n <= INT_MAX)%Z -> B2R (ratio n i) <= B2R (ratio n j).
Proof.
  intros n i j L J N. destruct (ratio_fin n i ltac:(lia) N) as (_ & E1 & P & _). destruct (ratio_fin n j J N) as (_ & E2 & _).
  rewrite E1, E2. apply rnd_le; [reflexivity|]. apply Rmult_le_compat_r; [left; apply Rinv_0_lt_compat; lra|].
  apply rnd_le; [reflexivity|]. apply le_INR. exact L.
Qed.
Lemma ratio_1 : forall n, (1 <= n <= INT_MAX)%Z -> B2R (ratio n (Z.to_nat n)) = 1.
Proof.
  intros n N. destruct (ratio_fin n (Z.to_nat n) ltac:(lia) N) as (_ & E & P & _). rewrite E.
  rewrite INR_IZR_INZ, Z2Nat.id by lia. unfold Rdiv. rewrite Rinv_r by lra. apply rnd_id. apply (fmt_IZR 24 128 1); lia.
Qed.

Lemma interp_t_fin : forall (t0 t1 g : float64) (r : float32), is_finite t0 = true -> is_finite t1 = true -> B2R t0 <= B2R t1 ->
  is_finite g = true -> B2R g = B2R t1 - B2R t0 -> unit32 r ->
  is_finite (interp_t t0 t1 r : float64) = true /\ B2R (interp_t t0 t1 r : float64) = r64 (B2R t0 + r64 (B2R g * B2R r)) /\
  B2R t0 <= B2R (interp_t t0 t1 r : float64) <= B2R t1.
Proof.
  intros t0 t1 g r F0 F1 L FG EG U. unfold A in *. unfold interp_t. rewrite (clamp_id acosf r U). destruct U as (FR & R0 & R1).
  cbn [dadd dmul dsub f2d ieee]. destruct (f2d_fin r FR) as [F2 E2]. rewrite <- E2 in R0, R1 |- *. set (q := b32_to_b64 r) in *.
  destruct (minus_fin 53 1024 _ _ t1 t0 F1 F0) as [F3 E3].
  { apply small_bound with (x := g); [reflexivity|]. rewrite EG. lra. }
  rewrite <- EG, rnd_id in E3 by apply fmt_B2R. set (d := Bminus mode_NE t1 t0) in *.
  assert (G0 : 0 <= B2R g) by lra. assert (M : 0 <= B2R d * B2R q <= B2R g) by (rewrite E3; nra).
  destruct (mult_fin 53 1024 _ _ d q F3 F2) as [F4 E4].
  { apply small_bound with (x := g); [reflexivity|]. rewrite !Rabs_pos_eq by lra. lra. }
  assert (M2 : 0 <= r64 (B2R d * B2R q) <= B2R g).
  { split; [apply rnd_ge0; [reflexivity|lra]|apply rnd_le_fmt; [reflexivity|apply fmt_B2R|lra]]. }
  set (w := Bmult mode_NE d q) in *.
  assert (SM : small64 (B2R t0 + B2R w)).
  { rewrite E4. destruct (Rle_lt_dec 0 (B2R t0)).
    - apply small_bound with (x := t1); [reflexivity|]. rewrite !Rabs_pos_eq by lra. lra.
    - destruct (Rle_lt_dec (B2R t1) 0).
      + apply small_bound with (x := t0); [reflexivity|]. rewrite !Rabs_left1 by lra. lra.
      + unfold small. destruct (Rle_lt_dec 0 (B2R t0 + r64 (B2R d * B2R q))).
        * apply (small_bound 53 1024 eq_refl _ t1). rewrite !Rabs_pos_eq by lra. lra.
        * apply (small_bound 53 1024 eq_refl _ t0). rewrite !Rabs_left1 by lra. lra. }
  destruct (plus_fin 53 1024 _ _ t0 w F0 F4 SM) as [F5 E5]. split; [exact F5|]. rewrite E4 in E5. split; [rewrite E5, E3; reflexivity|].
  rewrite E5. split.
  - apply rnd_ge_fmt; [reflexivity|apply fmt_B2R|lra].
  - apply rnd_le_fmt; [reflexivity|apply fmt_B2R|lra].
Qed.

(** The times of a path. *)
Lemma path_loop_times : forall k p s a ta b tb n j sf out, path_loop p s a ta b tb n (Z.of_nat j) k = (sf, out) ->
  map t_time out = map (fun i => interp_t ta tb (ratio n i)) (seq j k) /\ sf = last out s.
Proof.
  induction k as [|k IH]; intros p s a ta b tb n j sf out H; cbn [path_loop] in H.
  - inversion H; subst. auto.
  - replace (Z.of_nat j + 1)%Z with (Z.of_nat (S j)) in H by lia.
    destruct (path_loop _ _ _ _ _ _ n (Z.of_nat (S j)) k) as [sf' o] eqn:E. injection H as <- <-.
    destruct (IH _ _ _ _ _ _ _ _ _ _ E) as [K1 K2]. split.
    + cbn [map seq]. rewrite K1. reflexivity.
    + rewrite K2. destruct o; [reflexivity|]. rewrite !last_cons'. reflexivity.
Qed.

Lemma sorted_map_seq : forall (f : nat -> R) k j, (forall a b, (j <= a <= b)%nat -> (b < j + k)%nat -> f a <= f b) ->
  StronglySorted Rle (map f (seq j k)).
Proof.
  intros f. induction k as [|k IH]; intros j H; [constructor|]. cbn [seq map]. constructor.
  - apply IH. intros a b L1 L2. apply H; lia.
  - apply Forall_forall. intros x IN. apply in_map_iff in IN. destruct IN as (i & <- & IN). apply in_seq in IN. apply H; lia.
Qed.
Lemma sorted_app : forall l1 l2 x, StronglySorted Rle l1 -> StronglySorted Rle l2 -> Forall (fun y => y <= x) l1 -> Forall (fun y => x <= y) l2 ->
  StronglySorted Rle (l1 ++ l2).
Proof.
  induction l1 as [|a l1 IH]; intros l2 x S1 S2 L1 L2; [exact S2|]. inversion S1 as [|? ? S3 S4]; subst. inversion L1 as [|? ? L3 L4]; subst.
  cbn. constructor; [eapply IH; eassumption|]. apply Forall_app. split; [exact S4|]. eapply Forall_impl; [|exact L2]. cbn. intros; lra.
Qed.

Lemma sorted_last : forall l d, StronglySorted Rle l -> Forall (fun y => y <= last l d) l.
Proof.
  induction l as [|a l IH]; intros d S; [constructor|]. inversion S as [|? ? S1 S2]; subst. rewrite last_cons'. constructor; [|apply IH; exact S1].
  destruct l as [|b l]; [apply Rle_refl|]. apply Rle_trans with b; [exact (Forall_inv S2)|]. exact (Forall_inv (IH a S1)).
Qed.

(** The times of [tips] are finite, in order and between [a] and [b]. *)
Definition timed (a b : R) (ts : list float64) : Prop :=
  Forall (fun t => is_finite t = true) ts /\ StronglySorted Rle (map B2R ts) /\ Forall (fun x => a <= x <= b) (map B2R ts).

Lemma path_timed : forall p s a (t0 : float64) b (t1 : float64) n sf out,
  update_along_path p s a t0 b t1 n = Ret (sf, out) ->
  is_finite t0 = true -> is_finite t1 = true -> B2R t0 <= B2R t1 ->
  (exists g : float64, is_finite g = true /\ B2R g = B2R t1 - B2R t0) ->
  timed (B2R t0) (B2R t1) (map t_time out) /\ sf = last out s /\
  (out <> [] -> B2R (t_time (last out s) : float64) = B2R t1).
Proof.
  intros p s a t0 b t1 n sf out H F0 F1 L (g & FG & EG). unfold update_along_path in H.
  destruct (Z.leb_spec INT_MAX n); [discriminate H|]. apply ret_inj in H.
  apply (path_loop_times _ p s a t0 b t1 n 1) in H. destruct H as [E1 E2].
  destruct (Z_le_gt_dec n 0) as [NZ|NZ].
  { replace (Z.to_nat n) with 0%nat in E1 by lia. cbn in E1. destruct out; [|discriminate E1]. split; [|split; [exact E2|congruence]]. repeat split; constructor. }
  assert (K : forall i, (1 <= i < 1 + Z.to_nat n)%nat ->
    is_finite (interp_t t0 t1 (ratio n i) : float64) = true /\ B2R (interp_t t0 t1 (ratio n i) : float64) = r64 (B2R t0 + r64 (B2R g * B2R (ratio n i))) /\
    B2R t0 <= B2R (interp_t t0 t1 (ratio n i) : float64) <= B2R t1).
  { intros i I. apply interp_t_fin; try assumption. apply ratio_fin; lia. }
  split; [|split; [exact E2|]].
  - rewrite E1. split; [|split].
    + apply Forall_forall. intros x IN. apply in_map_iff in IN. destruct IN as (i & <- & IN). apply in_seq in IN. apply K. exact IN.
    + rewrite map_map. apply sorted_map_seq. intros u v L1 L2. destruct (K u ltac:(lia)) as (_ & -> & _). destruct (K v ltac:(lia)) as (_ & -> & _).
      apply rnd_le; [reflexivity|]. apply Rplus_le_compat_l. apply rnd_le; [reflexivity|]. apply Rmult_le_compat_l; [lra|].
      apply ratio_mono; lia.
    + apply Forall_forall. intros x IN. rewrite map_map in IN. apply in_map_iff in IN. destruct IN as (i & <- & IN). apply in_seq in IN. apply K. exact IN.
  - intros NE. assert (Q : t_time (last out s) = last (map t_time out) (t_time s)).
    { clear. revert s. induction out as [|x l IH]; intros s; [reflexivity|]. cbn [map]. rewrite !last_cons'. apply IH. }
    rewrite Q, E1. destruct (Z.to_nat n) as [|k] eqn:EK; [lia|]. rewrite seq_S, map_app. cbn [map]. rewrite last_last.
    destruct (K (1 + k)%nat ltac:(lia)) as (_ & -> & _). change (1 + k)%nat with (S k). rewrite <- EK, ratio_1 by lia. rewrite Rmult_1_r.
    rewrite (rnd_id 53 1024 (B2R g)) by apply fmt_B2R. rewrite EG. replace (B2R t0 + (B2R t1 - B2R t0)) with (B2R t1) by ring.
    apply rnd_id. apply fmt_B2R.
Qed.

(** The time of a result, with mitigation off. *)
Lemma interp_t_1 : forall a t : float64, a = t \/ a = B754_zero false ->
  (is_finite t = true -> is_finite (interp_t a t f1 : float64) = true /\ B2R (interp_t a t f1 : float64) = B2R t) /\
  (is_finite (interp_t a t f1 : float64) = true -> is_finite t = true).
Proof.
  intros a t H. unfold A in *. unfold interp_t. assert (C : @clamp01 (ieee acosf) (@f1 (ieee acosf)) = @f1 (ieee acosf)).
  { apply clamp_id. destruct (f1_fin acosf) as [F E]. split; [exact F|]. rewrite E. lra. }
  rewrite C. clear C. cbn [dadd dmul dsub f2d ieee]. destruct (f1_fin acosf) as [F E]. destruct (f2d_fin _ F) as [F1 E1].
  rewrite E in E1. set (one := b32_to_b64 (@f1 (ieee acosf))) in *. clearbody one. split.
  - intros FT. destruct H as [->| ->].
    + rewrite minus_self by (exact FT || reflexivity). destruct (mult_fin 53 1024 _ _ (B754_zero false) one eq_refl F1) as [F2 E2].
      { cbn [B2R]. rewrite Rmult_0_l. apply small_le64. rewrite Rabs_R0. apply IZR_le. lia. }
      cbn [B2R] in E2. rewrite Rmult_0_l, rnd_0 in E2. set (z := Bmult mode_NE (B754_zero false) one) in *.
      destruct (plus_fin 53 1024 _ _ t z FT F2) as [F3 E3].
      { rewrite E2, Rplus_0_r. apply small_bound with (x := t); [reflexivity|lra]. }
      split; [exact F3|]. rewrite E3, E2, Rplus_0_r. apply rnd_id. apply fmt_B2R.
    + destruct (minus_fin 53 1024 _ _ t (B754_zero false) FT eq_refl) as [F2 E2].
      { cbn [B2R]. rewrite Rminus_0_r. apply small_bound with (x := t); [reflexivity|lra]. }
      cbn [B2R] in E2. rewrite Rminus_0_r, rnd_id in E2 by apply fmt_B2R. set (d := Bminus mode_NE t (B754_zero false)) in *.
      destruct (mult_fin 53 1024 _ _ d one F2 F1) as [F3 E3].
      { rewrite E1, Rmult_1_r, E2. apply small_bound with (x := t); [reflexivity|lra]. }
      rewrite E1, Rmult_1_r, E2, rnd_id in E3 by apply fmt_B2R. set (w := Bmult mode_NE d one) in *.
      destruct (plus_fin 53 1024 _ _ (B754_zero false) w eq_refl F3) as [F4 E4].
      { cbn [B2R]. rewrite Rplus_0_l, E3. apply small_bound with (x := t); [reflexivity|lra]. }
      split; [exact F4|]. cbn [B2R] in E4. rewrite E4, Rplus_0_l, E3. apply rnd_id. apply fmt_B2R.
  - destruct t as [s|s| |s m e B]; try reflexivity; intros Q; exfalso.
    + destruct one as [u|u| |u m e B]; try discriminate F1; destruct H as [->| ->]; cbn in E1; try lra; destruct s; try discriminate Q; destruct u; discriminate Q.
    + destruct one as [u|u| |u m e B]; destruct H as [->| ->]; discriminate Q.
Qed.

Definition same_time (r : Result) (tip : TipState) : Prop :=
  (is_finite (t_time tip : float64) = true -> is_finite (r_time r : float64) = true /\ B2R (r_time r : float64) = B2R (t_time tip : float64)) /\
  (is_finite (r_time r : float64) = true -> is_finite (t_time tip : float64) = true).

Lemma query_time : forall fuel sm tip n r, stylus_query fuel sm tip n = Ret r -> r_time r = t_time tip \/ r_time r = d0.
Proof.
  intros fuel sm tip n r H. destruct (query_eq fuel sm tip n) as [[_ Q]|(_ & o & Q & _)]; rewrite Q in H.
  - apply ret_inj in H. subst r. right. reflexivity.
  - bind_inv H. apply ret_inj in H. subst r. left. reflexivity.
Qed.
Lemma interp_result_time : forall fuel a b x r, interp_result fuel a b x = Ret r -> r_time r = interp_t (r_time a) (r_time b) x.
Proof. intros fuel a b x r H. unfold interp_result in H. bind_inv H. apply ret_inj in H. subst r. reflexivity. Qed.

(** Interpolating between equal times. *)
Lemma interp_t_self : forall (t : float64) (x : float32), is_finite (interp_t t t x : float64) = true ->
  is_finite t = true /\ B2R (interp_t t t x : float64) = B2R t.
Proof.
  intros t x H. unfold A in *. unfold interp_t in *. cbn [dadd dmul dsub f2d ieee] in *. set (c := b32_to_b64 (@clamp01 (ieee acosf) x)) in *. clearbody c.
  assert (FT : is_finite t = true).
  { destruct t as [s|s| |s m e B]; try reflexivity; destruct c as [u|u| |u m' e' B']; try discriminate H; destruct s; try discriminate H; destruct u; discriminate H. }
  split; [exact FT|]. rewrite minus_self in * by (exact FT || reflexivity).
  assert (FC : is_finite c = true).
  { destruct c as [u|u| |u m e B]; try reflexivity; exfalso; destruct t as [s|s| |s m' e' B']; try discriminate FT; discriminate H. }
  destruct (mult_fin 53 1024 _ _ (B754_zero false) c eq_refl FC) as [F2 E2].
  { cbn [B2R]. rewrite Rmult_0_l. apply small_le64. rewrite Rabs_R0. apply IZR_le. lia. }
  cbn [B2R] in E2. rewrite Rmult_0_l, rnd_0 in E2. set (z := Bmult mode_NE (B754_zero false) c) in *.
  destruct (plus_fin 53 1024 _ _ t z FT F2) as [F3 E3].
  { rewrite E2, Rplus_0_r. apply small_bound with (x := t); [reflexivity|lra]. }
  rewrite E3, E2, Rplus_0_r. apply rnd_id. apply fmt_B2R.
Qed.
Lemma query_time_kept : forall fuel sm tip n r, s_raw (sm_state sm) <> [] -> stylus_query fuel sm tip n = Ret r -> r_time r = t_time tip.
Proof.
  intros fuel sm tip n r NE H. destruct (query_eq fuel sm tip n) as [[Q _]|(_ & o & Q & _)]; [destruct (NE Q)|]. rewrite Q in H.
  bind_inv H. apply ret_inj in H. subst r. reflexivity.
Qed.
Lemma results_times : forall fuel tips sm lm pt lm' out,
  lp_enabled (l_params lm) = false \/ s_raw (sm_state sm) <> [] /\ Forall (fun r : Result => is_finite (r_time r : float64) = true) out ->
  model_stylus fuel tips sm lm pt = Ret (lm', out) -> Forall2 same_time out tips.
Proof.
  intros fuel tips sm lm pt lm' out [E|[NE FO]] H; unfold model_stylus in H.
  - assert (LG : loop_get lm = f1) by (unfold loop_get, loop_value; rewrite E; destruct (l_samples lm); reflexivity).
    rewrite LG in H. clear LG. revert pt lm' out H. induction tips as [|tip rest IH]; intros pt lm' out H; cbn [model_stylus_loop] in H.
    + apply ret_inj in H. injection H as <- <-. constructor.
    + bind_inv H. rename E0 into Q. bind_inv H. rename E0 into IR.
      unfold loop_update in H. rewrite E in H. cbn [negb] in H. bind_inv H. destruct x1 as [l2 o2]. apply ret_inj in H. injection H as <- <-.
      constructor; [|eapply IH; exact E0]. unfold same_time.
      rewrite (interp_result_time _ _ _ _ _ IR). apply interp_t_1. cbn [make_result r_time].
      destruct (query_time _ _ _ _ _ Q) as [->| ->]; [left; reflexivity|right; reflexivity].
  - revert H. generalize (loop_get lm). intros v H. revert lm v pt lm' out FO H. induction tips as [|tip rest IH]; intros lm v pt lm' out FO H; cbn [model_stylus_loop] in H.
    + apply ret_inj in H. injection H as <- <-. constructor.
    + bind_inv H. rename E into Q. bind_inv H. rename E into IR. destruct (loop_update lm (r_vel x0) (t_time tip)) as [l1 v1].
      bind_inv H. destruct x1 as [l2 o2]. apply ret_inj in H. injection H as <- <-. constructor; [|eapply IH; [exact (Forall_inv_tail FO)|exact E]].
      apply Forall_inv in FO. unfold same_time. rewrite (interp_result_time _ _ _ _ _ IR) in *. cbn [make_result r_time] in *. rewrite (query_time_kept _ _ _ _ _ NE Q) in *.
      destruct (interp_t_self _ _ FO) as [K1 K2]. split; [intros _; split; [exact FO|exact K2]|intros _; exact K1].
Qed.
(** As it is used below. *)
Lemma results_timed : forall fuel p tips m c (t : float64) pr ti o sm lm' out pt, validate_params p = OkStatus -> sm_params (m_stylus m) = p_stylus p -> l_params (m_loop m) = pp_loop (p_position p) ->
  stylus_update (m_stylus m) c t pr ti o = Ret sm -> @sound_times acosf p out ->
  model_stylus fuel tips sm (m_loop m) pt = Ret (lm', out) -> Forall2 same_time out tips.
Proof.
  intros fuel p tips m c t pr ti o sm lm' out pt V C3 C4 SU [L|F] MS; eapply results_times; try exact MS; [left; rewrite C4; exact L|].
  destruct (lp_enabled (pp_loop (p_position p))) eqn:L; [|left; rewrite C4; exact L]. right. split; [|exact F].
  eapply raw_kept; [exact V|exact C3|exact L|exact SU].
Qed.

Lemma same_times : forall out tips, Forall2 same_time out tips -> Forall (fun t : TipState => is_finite (t_time t : float64) = true) tips ->
  Forall (fun r : Result => is_finite (r_time r : float64) = true) out /\ map (fun r : Result => B2R (r_time r : float64)) out = map B2R (map t_time tips : list float64).
Proof.
  intros out tips F. induction F as [|r t out tips [K _] F IH]; intros G; [split; [constructor|reflexivity]|].
  inversion G as [|? ? G1 G2]; subst. destruct (K G1) as [K1 K2]. destruct (IH G2) as [I1 I2]. split; [constructor; assumption|]. cbn [map]. rewrite K2, I2. reflexivity.
Qed.
Lemma same_times_back : forall out tips, Forall2 same_time out tips ->
  Forall (fun r : Result => is_finite (r_time r : float64) = true) out -> Forall (fun t : TipState => is_finite (t_time t : float64) = true) tips.
Proof.
  intros out tips F. induction F as [|r t out tips [_ K] F IH]; intros G; [constructor|].
  inversion G as [|? ? G1 G2]; subst. constructor; auto.
Qed.

(** The end of the stroke. *)
Lemma plus_up : forall x d : float64, is_finite x = true -> nonneg64 d -> is_finite (Bplus mode_NE x d) = true -> B2R x <= B2R (Bplus mode_NE x d).
Proof.
  intros x d FX ND FS. assert (FD : is_finite d = true).
  { destruct d as [s|s| |s m e B]; try reflexivity; destruct x; discriminate FS || discriminate FX. }
  assert (D0 : 0 <= B2R d) by (destruct d; try discriminate FD; exact ND).
  pose proof (Bplus_correct 53 1024 _ _ mode_NE x d FX FD) as K.
  destruct (Rlt_bool_spec (Rabs (round radix2 (SpecFloat.fexp 53 1024) (round_mode mode_NE) (B2R x + B2R d))) (bpow radix2 1024)) as [S|S].
  - destruct K as (K & _). rewrite K. change (B2R x <= r64 (B2R x + B2R d)). apply rnd_ge_fmt; [reflexivity|apply fmt_B2R|lra].
  - destruct K as (K & _). rewrite overflow_NE in K. apply B2SF_inf in K. rewrite K in FS. discriminate FS.
Qed.
Lemma half_nonneg : forall d : float64, nonneg64 d -> nonneg64 (dmul d (ddiv (dofZ 1) (dofZ 2))).
Proof.
  intros d N. unfold A. cbn [dmul ddiv dofZ ieee].
  set (h := Bdiv mode_NE _ _). assert (H : is_finite h = true /\ Bleb (B754_zero false) h = true /\ Bltb (B754_zero false) h = true) by (vm_compute; auto).
  destruct H as (F & L & P). apply (ltb_R 53 1024 (B754_zero false)) in P; [|reflexivity|exact F].
  assert (PH : pos 53 1024 h) by (destruct h; try discriminate F; exact P).
  apply mult_nonneg; auto using pos_nonneg.
Qed.

Lemma end_timed : forall p anchor stop k s (delta : float64) sf out, nonneg64 delta -> is_finite (t_time s : float64) = true ->
  model_end_of_stroke p s anchor delta k stop = (sf, out) ->
  (Forall (fun t : TipState => is_finite (t_time t : float64) = true) out ->
   StronglySorted Rle (B2R (t_time s : float64) :: map B2R (map t_time out : list float64))) /\
  (out = [] -> is_finite (t_time sf : float64) = true -> B2R (t_time s : float64) <= B2R (t_time sf : float64)).
Proof.
  intros p anchor stop. induction k as [|k IH]; intros s delta sf out D0 FS H; cbn [model_end_of_stroke] in H.
  - injection H as <- <-. split; [repeat constructor|intros; lra].
  - set (cand := tip_update p s anchor (dadd (t_time s) delta)) in *.
    assert (TC : t_time cand = dadd (t_time s) delta) by reflexivity.
    assert (UP : is_finite (t_time cand : float64) = true -> B2R (t_time s : float64) <= B2R (t_time cand : float64)).
    { rewrite TC. unfold A. cbn [dadd ieee]. apply plus_up; assumption. }
    clearbody cand. clear TC.
    destruct (fltb _ stop) in H; [|destruct (fltb _ f1) in H; [|destruct (fltb _ stop) in H]].
    + injection H as <- <-. split; [repeat constructor|intros _; exact UP].
    + eapply IH; [|exact FS|exact H]. apply half_nonneg. exact D0.
    + injection H as <- <-. split; [|discriminate]. intros F. inversion F; subst. cbn [map].
      constructor; [constructor; constructor|constructor; [apply UP; assumption|constructor]].
    + destruct (model_end_of_stroke _ _ _ _ k _) as [sf' o] eqn:E. injection H as <- <-. split; [|discriminate].
      intros F. inversion F as [|? ? F1 F2]; subst. specialize (IH _ _ _ _ D0 F1 E). destruct IH as [IH _]. specialize (IH F2).
      cbn [map]. constructor; [exact IH|]. constructor; [apply UP; exact F1|].
      inversion IH as [|? ? _ K]; subst. eapply Forall_impl; [|exact K]. cbn. intros x L. specialize (UP F1). lra.
Qed.

(** ** The invariant *)
Definition result_times (es : list entry) : list R := map (fun r : Result => B2R (r_time r : float64)) (List.concat (map snd es)).
Definition in_time (p : StrokeModelParams) (es : list entry) (c : core) : Prop :=
  inputs_in_order p es c /\
  (@sound_times acosf p (List.concat (map snd es)) -> Sorted (@exact_gap acosf) (map fst es) ->
   is_finite (t_time (co_tip c) : float64) = true /\
   Forall (fun r : Result => is_finite (r_time r : float64) = true) (List.concat (map snd es)) /\
   StronglySorted Rle (result_times es) /\
   B2R (t_time (co_tip c) : float64) = last (result_times es) 0 /\
   result_times es <> [] /\
   Forall (fun x => x <= B2R (i_time (li_input (co_last c)) : float64)) (result_times es) /\
   (forall d out0 rest, es = (d, out0) :: rest -> Forall (fun x => B2R (i_time d : float64) <= x) (result_times es))).

Lemma result_times_snoc : forall es i out, result_times (es ++ [(i, out)]) = result_times es ++ map (fun r : Result => B2R (r_time r : float64)) out.
Proof. intros es i out. unfold result_times. rewrite map_app, concat_app, map_app. cbn [map List.concat snd app]. rewrite app_nil_r. reflexivity. Qed.

Lemma in_time_down : forall fuel p m i m' out, upd fuel m i m' OkStatus out -> i_event i = EDown ->
  in_time p [(i, out)] (core_of p m' (mkLast i (i_pos i))).
Proof.
  intros fuel p m i m' out U EV. split; [exact (in_order_down fuel p m i m' out U EV)|].
  destruct (upd_down fuel m i m' out U EV) as (q & sm & pred & _ & VI & _ & _ & _ & -> & ->). intros _ _.
  apply input_F in VI. destruct VI as (_ & _ & F). cbn. split; [exact F|]. split; [constructor; [exact F|constructor]|].
  split; [constructor; constructor|]. split; [reflexivity|]. split; [discriminate|]. split; [constructor; [apply Rle_refl|constructor]|].
  intros d o0 rest Q. injection Q as <- _ _. constructor; [apply Rle_refl|constructor].
Qed.

Lemma last_map' : forall {X Y} (f : X -> Y) l x d e, last (map f (x :: l)) e = f (last (x :: l) d).
Proof. intros X Y f l. induction l as [|y l IH]; intros x d e; [reflexivity|]. cbn [map]. rewrite !last_cons'. rewrite <- (last_cons' l y d), <- (last_cons' (map f l) (f y) e). apply IH. Qed.
Lemma last_app : forall {X} (l1 l2 : list X) d, l2 <> [] -> last (l1 ++ l2) d = last l2 d.
Proof. intros X l1 l2 d NE. destruct (exists_last NE) as (x & y & ->). rewrite app_assoc, !last_last. reflexivity. Qed.

Lemma in_time_move : forall fuel p m i m' out es lst last', m_params m = Some p -> validate_params p = OkStatus -> comp_params p m ->
  m_last m = Some lst -> in_time p es (core_of p m lst) -> upd fuel m i m' OkStatus out -> i_event i = EMove ->
  m_last m' = Some last' -> in_time p (es ++ [(i, out)]) (core_of p m' last').
Proof.
  intros fuel p m i m' out es lst last' MP V (C1 & C2 & C3 & C4) ML (J0 & J) U EV ML'.
  split; [exact (in_order_move fuel p m i m' out es lst last' ML J0 U EV ML')|]. intros LO GAP.
  pose proof J0 as (JV & _ & l & JL). cbn [core_of co_last] in JL.
  destruct (upd_move fuel m i m' out U EV) as (p0 & last0 & w & c & sm & n & tip & tips & pred & lm & MP0 & VI & ML0 & DL & _ & SU & NS & UA & _ & MS & EM).
  rewrite ML in ML0. apply some_inj in ML0. subst last0. rewrite MP in MP0. apply some_inj in MP0. subst p0.
  assert (EL : last' = mkLast i c) by (rewrite EM in ML'; cbn in ML'; apply some_inj in ML'; congruence). subst last'.
  assert (LO2 : @sound_times acosf p (List.concat (map snd es)) /\ @sound_times acosf p out).
  { destruct LO as [LO|LO]; [split; left; exact LO|]. rewrite map_app, concat_app in LO. apply Forall_app in LO. destruct LO as [LA LB].
    cbn [map List.concat snd] in LB. rewrite app_nil_r in LB. split; right; assumption. }
  destruct LO2 as [LOA LOB].
  rewrite map_app in GAP. cbn [map fst] in GAP.
  assert (GAP2 : Sorted (@exact_gap acosf) ((l ++ [li_input lst]) ++ [i])) by (rewrite <- JL; exact GAP).
  apply sorted_init in GAP2. destruct GAP2 as [G1 G2].
  destruct J as (J1 & J2 & J3 & J4 & J5 & J6 & J7); [exact LOA|rewrite JL; exact G1|]. cbn [core_of co_tip co_last] in *.
  assert (VL : validate_input (li_input lst) = OkStatus).
  { assert (IN : In (li_input lst) (map fst es)) by (rewrite JL; apply in_or_app; right; left; reflexivity).
    exact (proj1 (Forall_forall _ _) JV _ IN). }
  apply input_F in VI, VL. destruct VI as (_ & _ & F1), VL as (_ & _ & F0).
  unfold A in DL. cbn [dltb ieee] in DL. apply (ltb_false_R 53 1024) in DL; [|exact F1|exact F0].
  destruct (path_timed _ _ _ _ _ _ _ _ _ UA F0 F1 DL G2) as ((K1 & K2 & K3) & K4 & K5).
  assert (FT : Forall (fun t : TipState => is_finite (t_time t : float64) = true) tips) by (clear - K1; induction tips as [|t tips IH]; [constructor|]; inversion K1; subst; constructor; auto).
  apply (results_timed _ _ _ _ _ _ _ _ _ _ _ _ _ V C3 C4 SU LOB) in MS. destruct (same_times _ _ MS FT) as [M1 M2].
  rewrite result_times_snoc, M2. rewrite EM. cbn [m_pos pos_with_state pm_state].
  assert (LE : Forall (fun x => x <= B2R (i_time i : float64)) (result_times es)).
  { eapply Forall_impl; [|exact J6]. intros x Lx. exact (Rle_trans _ _ _ Lx DL). }
  split.
  { rewrite K4. clear - J1 FT. destruct tips as [|t tips]; [exact J1|]. assert (IN : In (last (t :: tips) (pm_state (m_pos m))) (t :: tips)).
    { destruct (exists_last (l := t :: tips)) as (x & y & E); [discriminate|]. rewrite E, last_last. apply in_or_app. right. left. reflexivity. }
    exact (proj1 (Forall_forall _ _) FT _ IN). }
  split; [rewrite map_app, concat_app; apply Forall_app; split; [exact J2|cbn [map List.concat snd]; rewrite app_nil_r; exact M1]|].
  split.
  { eapply sorted_app; [exact J3|exact K2|exact J6|]. eapply Forall_impl; [|exact K3]. intros x Lx. exact (proj1 Lx). }
  split.
  { rewrite K4. destruct tips as [|t tips].
    - cbn [map]. rewrite app_nil_r. exact J4.
    - rewrite last_app by discriminate. rewrite map_map. symmetry. apply (last_map' (fun t : TipState (A := A) => B2R (t_time t : float64))). }
  split; [intros Q; apply app_eq_nil in Q; destruct Q as [Q _]; exact (J5 Q)|].
  split.
  { apply Forall_app. split; [exact LE|]. eapply Forall_impl; [|exact K3]. intros x Lx. exact (proj2 Lx). }
  intros d out0 rest E. destruct es as [|[d' o'] es']; [destruct l; discriminate JL|]. injection E as -> -> _.
  specialize (J7 d out0 es' eq_refl). apply Forall_app. split; [exact J7|].
  assert (D0 : B2R (i_time d : float64) <= B2R (i_time (li_input lst) : float64)).
  { revert J5 J6 J7. generalize (result_times (@Datatypes.cons (@entry A) (d, out0) es')). intros [|x xs] J5 J6 J7; [destruct (J5 eq_refl)|]. exact (Rle_trans _ _ _ (Forall_inv J7) (Forall_inv J6)). }
  eapply Forall_impl; [|exact K3]. intros x Lx. exact (Rle_trans _ _ _ D0 (proj1 Lx)).
Qed.

Lemma in_time_state : forall fuel hist s es, after_stroke fuel hist s es ->
  exists m rs, run fuel modeler0 hist = Ret (m, rs) /\ tracks s m /\ good m /\ cons m /\
    (forall p last, m_params m = Some p -> m_last m = Some last -> in_time p es (core_of p m last)).
Proof.
  intros fuel hist s es AS. refine (after_stroke_state fuel (fun _ => True) in_time _ _ _ hist s es AS (call_in_true hist)).
  - intros p m i m' out _ MP V G U EV. exact (in_time_down fuel p m i m' out U EV).
  - intros p m i m' out is lst last' _ MP V G CP ML J U EV ML'. exact (in_time_move fuel p m i m' out is lst last' MP V CP ML J U EV ML').
  - intros p m i m' out is lst e _ MP V G CP ML J U NE. inversion U; subst; try congruence; exact J.
Qed.
End FTime.

(** ** Theorems *)
(** With sound times and time differences that are exact: the times of all results
    of the stroke are finite, never decrease, and lie between the times of the Down
    and of the last accepted input. *)
Theorem C23_float_times_never_decrease : forall acosf (A := ieee acosf) fuel hist s p l es,
  after_stroke fuel hist s es -> ps_params s = Some p -> ps_last s = Some l ->
  @sound_times acosf p (List.concat (map snd es)) -> Sorted (@exact_gap acosf) (map fst es) ->
  let times := map (fun r => B2R (r_time r : float64)) (List.concat (map snd es)) in
  Forall (fun r => is_finite (r_time r : float64) = true) (List.concat (map snd es)) /\ Sorted Rle times /\
  exists d, hd_error (map fst es) = Some d /\ Forall (fun t => B2R (i_time d : float64) <= t <= B2R (i_time l : float64)) times.
Proof.
  intros acosf A fuel hist s p l es AS P PL LO GAP times. subst A.
  destruct (in_time_state acosf fuel hist s es AS) as (m & rs & R & (T1 & T2 & _) & G & C & K).
  rewrite PL in T2. destruct (m_last m) as [lst|] eqn:ML; [|discriminate T2]. apply some_inj in T2.
  destruct (K p lst ltac:(congruence) eq_refl) as ((_ & _ & l0 & JL) & J).
  destruct (J LO GAP) as (J1 & J2 & J3 & J4 & J5 & J6 & J7). cbn [core_of co_last] in *. rewrite <- T2 in *.
  split; [exact J2|]. split; [apply StronglySorted_Sorted; exact J3|].
  destruct es as [|[d o] es]; [destruct l0; discriminate JL|]. exists d. split; [reflexivity|].
  specialize (J7 d o es eq_refl). apply Forall_forall. intros x IN. split.
  - exact (proj1 (Forall_forall _ _) J7 x IN).
  - exact (proj1 (Forall_forall _ _) J6 x IN).
Qed.

(** The results of a Move reach its time exactly, if there are any. *)
Theorem C23_float_move_ends_at_input : forall acosf (A := ieee acosf) fuel hist s p l i rs out r,
  after fuel hist s -> ps_params s = Some p -> ps_last s = Some l -> i_event i = EMove ->
  @sound_times acosf p (out ++ [r]) -> @exact_gap acosf l i ->
  answers fuel hist [CUpdate i rs] = Ret [RResults OkStatus (rs ++ out ++ [r])] ->
  is_finite (r_time r : float64) = true /\ B2R (r_time r : float64) = B2R (i_time i : float64).
Proof.
  intros acosf A fuel hist s p l i rs out r AF P PL EV LO GAP AN. subst A.
  destruct (accepted_update _ _ _ _ _ _ _ AF AN) as (m & r0 & m' & o & R & (T1 & T2 & _) & G & C & K & U & _).
  apply app_inv_head in K. subst o.
  destruct (upd_move _ _ _ _ _ U EV) as (p0 & lst & w & c & sm & n & tip & tips & pred & lm & MP & VI & ML & DL & WU & SU & NS & UA & UP & MS & EM).
  assert (p0 = p) by congruence. subst p0. assert (EL : l = li_input lst) by (rewrite ML, PL in T2; apply some_inj in T2; exact T2). subst l.
  destruct (last_valid_run fuel hist _ _ _ last_valid0 R) as [LV _]. specialize (LV _ ML).
  apply input_F in VI, LV. destruct VI as (_ & _ & F1), LV as (_ & _ & F0).
  cbn [dltb ieee] in DL. apply (ltb_false_R 53 1024) in DL; [|exact F1|exact F0].
  destruct (path_timed acosf _ _ _ _ _ _ _ _ _ UA F0 F1 DL GAP) as ((K1 & K2 & K3) & K4 & K5).
  destruct (C p MP ltac:(left; congruence)) as (C1 & C2 & C3 & C4).
  apply (results_timed acosf _ _ _ _ _ _ _ _ _ _ _ _ _ (g_valid _ G p MP) C3 C4 SU LO) in MS.
  apply Forall2_app_inv_l in MS. destruct MS as (ts & tl & _ & MS & ->). inversion MS as [|? t ? tl' M1 M2]; subst. inversion M2; subst.
  assert (NE : ts ++ [t] <> []) by (intros Q; destruct ts; discriminate Q). specialize (K5 NE). rewrite last_last in K5.
  rewrite map_app in K1. cbn [map] in K1. apply Forall_app in K1. destruct K1 as [_ K1]. apply Forall_inv in K1.
  destruct (proj1 M1 K1) as [Q1 Q2]. split; [exact Q1|]. rewrite <- K5. exact Q2.
Qed.

(** The same for the whole stroke with the Up that ends it, as long as no time
    overflows. *)
Theorem C23_float_up_times_never_decrease : forall acosf (A := ieee acosf) fuel hist s p l i rs out es,
  after_stroke fuel hist s es -> ps_params s = Some p -> ps_last s = Some l -> i_event i = EUp ->
  @sound_times acosf p (List.concat (map snd es)) -> Sorted (@exact_gap acosf) (map fst es ++ [i]) ->
  answers fuel hist [CUpdate i rs] = Ret [RResults OkStatus (rs ++ out)] ->
  Forall (fun r => is_finite (r_time r : float64) = true) out ->
  Sorted Rle (map (fun r => B2R (r_time r : float64)) (List.concat (map snd es) ++ out)).
Proof.
  intros acosf A fuel hist s p l i rs out es AS P PL EV LO GAP AN FO. subst A.
  destruct (in_time_state acosf fuel hist s es AS) as (m0 & rs0 & R0 & _ & _ & _ & OT).
  assert (AF : after fuel hist s) by (destruct AS as (ma & rsa & Ra & Pa & _); exists ma, rsa; auto).
  destruct (accepted_update _ _ _ _ _ _ _ AF AN) as (m & r0 & m' & o & R & (T1 & T2 & _) & G & C & K & U & _).
  rewrite R0 in R. apply ret_inj in R. injection R as -> ->. apply app_inv_head in K. subst o.
  destruct (upd_up _ _ _ _ _ U EV) as (p0 & lst & n & tip1 & tips1 & tip2 & tips2 & sm & lm & MP & VI & ML & DL & NS & UA & ME & SU & MS & _).
  assert (p0 = p) by congruence. subst p0. assert (EL : l = li_input lst) by (rewrite ML, PL in T2; apply some_inj in T2; exact T2). subst l.
  destruct (OT p lst MP ML) as ((JV & _ & l0 & JL) & J). cbn [core_of co_last] in JL.
  assert (GAP2 : Sorted (@exact_gap acosf) ((l0 ++ [li_input lst]) ++ [i])) by (rewrite <- JL; exact GAP).
  apply sorted_init in GAP2. destruct GAP2 as [G1 G2].
  destruct J as (J1 & J2 & J3 & J4 & J5 & J6 & J7); [exact LO|rewrite JL; exact G1|]. cbn [core_of co_tip co_last] in *.
  destruct (last_valid_run fuel hist _ _ _ last_valid0 R0) as [LV _]. specialize (LV _ ML).
  pose proof (g_valid _ G p MP) as V.
  apply input_F in VI, LV. destruct VI as (_ & _ & F1), LV as (_ & _ & F0).
  cbn [dltb ieee] in DL. apply (ltb_false_R 53 1024) in DL; [|exact F1|exact F0].
  destruct (path_timed acosf _ _ _ _ _ _ _ _ _ UA F0 F1 DL G2) as ((K1 & K2 & K3) & K4 & K5).
  destruct (C p MP ltac:(left; congruence)) as (C1 & C2 & C3 & C4).
  apply (results_timed acosf _ _ _ _ _ _ _ _ _ _ _ _ _ V C3 C4 SU (or_intror FO)) in MS.
  pose proof (same_times_back _ _ _ MS FO) as FT. destruct (same_times _ _ _ MS FT) as [_ M2].
  rewrite map_app, M2. apply StronglySorted_Sorted.
  assert (D0 : nonneg64 (ddiv (Arith := ieee acosf) (dofZ (Arith := ieee acosf) 1) (sp_rate (p_sampling p)))).
  { destruct (validate_params_parts p V) as (_ & _ & VS & _). unfold validate_sampling in VS. apply and_then_ok in VS.
    destruct VS as [VR _]. apply gt0_d_F in VR. destruct VR as [R1 R2]. cbn [ddiv dofZ ieee].
    apply (div_nonneg 53 1024); [|exact R1|exact R2]. apply nonneg_fin; [apply (ofZ_64 1); reflexivity|].
    rewrite (proj2 (ofZ_64 1 eq_refl)). lra. }
  set (T := result_times acosf es) in *. match goal with |- StronglySorted _ (?a ++ _) => change a with T end.
  assert (FT1 : is_finite (t_time tip1 : float64) = true).
  { rewrite K4. clear - J1 K1. destruct tips1 as [|t tips]; [exact J1|]. revert K1. generalize (pm_state (m_pos m)). clear.
    revert t. induction tips as [|t' tips IH]; intros t d K; inversion K; subst; [assumption|]. rewrite last_cons'.
    apply IH. assumption. }
  assert (SL : StronglySorted Rle (T ++ map B2R (map t_time tips1 : list float64)) /\ B2R (t_time tip1 : float64) = last (T ++ map B2R (map t_time tips1 : list float64)) 0).
  { split.
    - eapply sorted_app; [exact J3|exact K2|exact J6|]. eapply Forall_impl; [|exact K3]. intros x Lx. exact (proj1 Lx).
    - rewrite K4. destruct tips1 as [|t tips]; [cbn [map]; rewrite app_nil_r; exact J4|].
      rewrite last_app by discriminate. rewrite map_map. symmetry. apply (last_map' (fun t : TipState (A := ieee acosf) => B2R (t_time t : float64))). }
  destruct SL as [S1 S2].
  destruct (end_timed acosf _ _ _ _ _ _ _ _ D0 FT1 ME) as [E1 E2].
  assert (TP : exists tips3, (match tips1 ++ tips2 with [] => [tip2] | l => l end) = tips1 ++ tips3 /\
    StronglySorted Rle (B2R (t_time tip1 : float64) :: map B2R (map t_time tips3 : list float64))).
  { destruct (tips1 ++ tips2) as [|t l] eqn:EQ.
    - apply app_eq_nil in EQ. destruct EQ as [-> ->]. exists [tip2]. split; [reflexivity|]. apply Forall_inv in FT.
      cbn [map]. constructor; [constructor; constructor|constructor; [apply E2; [reflexivity|exact FT]|constructor]].
    - exists tips2. split; [symmetry; exact EQ|]. apply E1. rewrite <- EQ in FT. apply Forall_app in FT. apply FT. }
  destruct TP as (tips3 & -> & S3). rewrite !map_app, app_assoc. inversion S3 as [|? ? S4 S5]; subst.
  eapply sorted_app; [exact S1|exact S4| |exact S5]. rewrite S2. apply sorted_last. exact S1.
Qed.
