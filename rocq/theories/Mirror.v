(** * Changing signs in IEEE arithmetic: the operations commute with it, up to the sign of zero. *)
From Coq Require Import ZArith Bool Reals Lra Lia Psatz.
From Flocq Require Import Core.Core IEEE754.BinarySingleNaN.
From Verif Require Import Arith Ieee FloatFacts.
Open Scope R_scope.

(** The extended real (or NaN) that a float stands for: forgets the sign of zero. *)
Inductive ext : Type := XNan | XInf (s : bool) | XFin (r : R).
Definition xneg (b : bool) (v : ext) : ext :=
  if b then match v with XNan => XNan | XInf s => XInf (negb s) | XFin r => XFin (- r) end else v.
Lemma xneg_neg : forall b v, xneg b (xneg b v) = v.
Proof. intros [|] [|s|r]; cbn; rewrite ?negb_involutive, ?Ropp_involutive; reflexivity. Qed.
Lemma xneg_comp : forall b c v, xneg b (xneg c v) = xneg (xorb b c) v.
Proof. intros [|] [|] [|s|r]; cbn; rewrite ?negb_involutive, ?Ropp_involutive; reflexivity. Qed.
Lemma xneg_fin : forall b r, xneg b (XFin r) = XFin (if b then - r else r).
Proof. intros [|] r; reflexivity. Qed.
Lemma xneg_inf : forall b s, xneg b (XInf s) = XInf (xorb b s).
Proof. intros [|] [|]; reflexivity. Qed.
Lemma xneg_nan : forall b, xneg b XNan = XNan.
Proof. intros [|]; reflexivity. Qed.
Lemma xneg_zero : forall b, xneg b (XFin 0) = XFin 0.
Proof. intros [|]; cbn; rewrite ?Ropp_0; reflexivity. Qed.

Lemma Rlt_bool_opp0 : forall r, r <> 0 -> Rlt_bool (- r) 0 = negb (Rlt_bool r 0).
Proof.
  intros r N. destruct (Rlt_bool_spec r 0) as [H|H]; cbn.
  - apply Rlt_bool_false. lra.
  - apply Rlt_bool_true. lra.
Qed.

Section Generic.
Variables prec emax : Z.
Context (Hp : FLX.Prec_gt_0 prec) (Hm : Prec_lt_emax prec emax).
Notation bf := (binary_float prec emax).
Notation B2R := (@B2R prec emax).
Notation rnd := (rnd prec emax).

Definition val (x : bf) : ext :=
  match x with
  | B754_zero _ => XFin 0
  | B754_infinity s => XInf s
  | B754_nan => XNan
  | B754_finite _ _ _ _ => XFin (B2R x)
  end.
Lemma val_fin : forall x, is_finite x = true -> val x = XFin (B2R x).
Proof. intros [s|s| |s m e H] F; try discriminate F; reflexivity. Qed.
Lemma val_opp : forall x, val (Bopp x) = xneg true (val x).
Proof.
  intros [s|s| |s m e H]; cbn [val Bopp xneg]; rewrite ?Ropp_0; try reflexivity.
  f_equal. change (B2R (Bopp (B754_finite s m e H)) = - B2R (B754_finite s m e H)). apply B2R_Bopp.
Qed.

(** Equal up to the sign of zero. *)
Definition same (x y : bf) : Prop := x = y \/ exists s t, x = B754_zero s /\ y = B754_zero t.
Lemma same_val : forall x y, same x y <-> val x = val y.
Proof.
  intros x y. split.
  - intros [->|(s & t & -> & ->)]; reflexivity.
  - intros E. destruct x as [s|s| |s m e H], y as [t|t| |t n f K]; cbn [val] in E; try discriminate E.
    + right. exists s, t. auto.
    + exfalso. apply (B2R_finite_neq0 prec emax t n f K). injection E as E. auto.
    + left. injection E as ->. reflexivity.
    + left. reflexivity.
    + exfalso. apply (B2R_finite_neq0 prec emax s m e H). injection E as E. auto.
    + left. apply B2R_inj; try reflexivity. injection E as E. exact E.
Qed.
Lemma same_sign : forall x y, same x y -> Bsign x = Bsign y -> x = y.
Proof. intros x y [E|(s & t & -> & ->)] S; [exact E|]. cbn in S. subst. reflexivity. Qed.

(** [y] is [x], with its sign changed if [b], up to the sign of zero. *)
Definition signed (b : bool) (x y : bf) : Prop := val y = xneg b (val x).
Lemma signed_same : forall x y, signed false x y <-> same x y.
Proof. intros x y. unfold signed. cbn. rewrite same_val. split; auto. Qed.
Lemma signed_refl : forall x, signed false x x.
Proof. reflexivity. Qed.
Lemma signed_opp : forall x, signed true x (Bopp x).
Proof. intros x. apply val_opp. Qed.
Lemma signed_zero : forall b s t, signed b (B754_zero s) (B754_zero t).
Proof. intros b s t. unfold signed. cbn [val]. symmetry. apply xneg_zero. Qed.
Lemma signed_trans : forall b c x y z, signed b x y -> signed c y z -> signed (xorb c b) x z.
Proof. unfold signed. intros b c x y z -> ->. apply xneg_comp. Qed.

(** The result of rounding a real. *)
Definition rounded (r : R) : ext :=
  if Rlt_bool (Rabs (rnd r)) (bpow radix2 emax) then XFin (rnd r) else XInf (Rlt_bool r 0).
Lemma rounded_0 : rounded 0 = XFin 0.
Proof.
  unfold rounded. rewrite rnd_0 by assumption. rewrite Rabs_R0, Rlt_bool_true; [reflexivity|apply bpow_gt_0].
Qed.
Lemma rounded_opp : forall r, rounded (- r) = xneg true (rounded r).
Proof.
  intros r. destruct (Req_dec r 0) as [->|N]; [rewrite Ropp_0, rounded_0; cbn; rewrite Ropp_0; reflexivity|].
  unfold rounded. rewrite rnd_opp by assumption. rewrite Rabs_Ropp.
  destruct (Rlt_bool _ _); cbn; [reflexivity|]. rewrite Rlt_bool_opp0 by exact N. reflexivity.
Qed.
Lemma rounded_neg : forall (b : bool) r, rounded (if b then - r else r) = xneg b (rounded r).
Proof. intros [|] r; [apply rounded_opp|reflexivity]. Qed.
Lemma big_nz : forall r, Rlt_bool (Rabs (rnd r)) (bpow radix2 emax) = false -> r <> 0.
Proof.
  intros r H ->. rewrite rnd_0, Rabs_R0, Rlt_bool_true in H by (assumption || apply bpow_gt_0). discriminate H.
Qed.
Lemma rounded_B2R : forall x, is_finite x = true -> rounded (B2R x) = XFin (B2R x).
Proof.
  intros x F. unfold rounded. rewrite rnd_id by (assumption || apply fmt_B2R).
  rewrite Rlt_bool_true by apply B2R_lt_emax. reflexivity.
Qed.
Lemma sign_R : forall x, is_finite x = true -> B2R x <> 0 -> Bsign x = Rlt_bool (B2R x) 0.
Proof.
  intros [s|s| |s m e H] F N; try discriminate F; [exfalso; apply N; reflexivity|].
  cbn [Bsign]. destruct s.
  - symmetry. apply Rlt_bool_true. destruct (Rle_or_lt 0 (B2R (B754_finite true m e H))) as [K|K]; [|exact K].
    apply B2R_finite_ge in K. discriminate K.
  - symmetry. apply Rlt_bool_false. apply B2R_finite_ge. reflexivity.
Qed.
Lemma sign_le : forall x, is_finite x = true -> Bsign x = true -> B2R x <= 0.
Proof.
  intros x F S. destruct (Req_dec (B2R x) 0) as [->|N]; [lra|].
  rewrite sign_R in S by assumption. destruct (Rlt_bool_spec (B2R x) 0); [lra|discriminate S].
Qed.
Lemma sign_ge : forall x, is_finite x = true -> Bsign x = false -> 0 <= B2R x.
Proof.
  intros x F S. destruct (Req_dec (B2R x) 0) as [->|N]; [lra|].
  rewrite sign_R in S by assumption. destruct (Rlt_bool_spec (B2R x) 0); [discriminate S|lra].
Qed.

(** ** Addition, subtraction *)
Definition xadd (v w : ext) : ext :=
  match v, w with
  | XFin r, XFin q => rounded (r + q)
  | XNan, _ | _, XNan => XNan
  | XInf s, XInf t => if Bool.eqb s t then XInf s else XNan
  | XInf s, XFin _ => XInf s
  | XFin _, XInf t => XInf t
  end.
Lemma plus_ff : forall x y, is_finite x = true -> is_finite y = true -> val (Bplus mode_NE x y) = rounded (B2R x + B2R y).
Proof.
  intros x y Fx Fy. pose proof (Bplus_correct prec emax _ _ mode_NE x y Fx Fy) as K.
  change (round_mode mode_NE) with ZnearestE in K. fold (rnd (B2R x + B2R y)) in K. unfold rounded.
  destruct (Rlt_bool (Rabs (rnd (B2R x + B2R y))) (bpow radix2 emax)) eqn:E.
  - destruct K as (K1 & K2 & _). rewrite val_fin by exact K2. rewrite K1. reflexivity.
  - destruct K as [K1 K2]. rewrite overflow_NE in K1. apply B2SF_inf in K1. rewrite K1. cbn [val]. f_equal.
    apply big_nz in E. destruct (Bsign x) eqn:S.
    + symmetry. apply Rlt_bool_true. pose proof (sign_le x Fx S). pose proof (sign_le y Fy (eq_sym K2)). lra.
    + symmetry. apply Rlt_bool_false. pose proof (sign_ge x Fx S). pose proof (sign_ge y Fy (eq_sym K2)). lra.
Qed.
Lemma plus_val : forall x y, val (Bplus mode_NE x y) = xadd (val x) (val y).
Proof.
  intros x y. destruct (is_finite x) eqn:Fx; [destruct (is_finite y) eqn:Fy|].
  - rewrite (val_fin x Fx), (val_fin y Fy). apply plus_ff; assumption.
  - rewrite (val_fin x Fx). destruct x as [s|s| |s m e H], y as [t|t| |t n f K]; try discriminate Fx; try discriminate Fy; reflexivity.
  - destruct x as [s|s| |s m e H], y as [t|t| |t n f K]; try discriminate Fx; cbn [Bplus val xadd]; try reflexivity;
      destruct (Bool.eqb s t); reflexivity.
Qed.
Lemma xadd_neg : forall b v w, xadd (xneg b v) (xneg b w) = xneg b (xadd v w).
Proof.
  intros [|] v w; [|reflexivity]. destruct v as [|s|r], w as [|t|q]; cbn [xneg xadd]; try reflexivity.
  - destruct s, t; reflexivity.
  - rewrite <- Ropp_plus_distr. apply (rounded_neg true).
Qed.
Lemma xadd_comm : forall v w, xadd v w = xadd w v.
Proof.
  intros [|s|r] [|t|q]; cbn [xadd]; try reflexivity.
  - destruct s, t; reflexivity.
  - rewrite Rplus_comm. reflexivity.
Qed.
Lemma minus_val : forall x y, val (Bminus mode_NE x y) = xadd (val x) (xneg true (val y)).
Proof.
  intros x y. rewrite <- val_opp, <- plus_val. f_equal.
  destruct x as [s|s| |s m e H], y as [t|t| |t n f K]; reflexivity.
Qed.
Lemma signed_plus : forall b x y x' y', signed b x x' -> signed b y y' -> signed b (Bplus mode_NE x y) (Bplus mode_NE x' y').
Proof. unfold signed. intros b x y x' y' E1 E2. rewrite !plus_val, E1, E2. apply xadd_neg. Qed.
Lemma xneg_swap : forall b c v, xneg b (xneg c v) = xneg c (xneg b v).
Proof. intros b c v. rewrite !xneg_comp, xorb_comm. reflexivity. Qed.
Lemma signed_minus : forall b x y x' y', signed b x x' -> signed b y y' -> signed b (Bminus mode_NE x y) (Bminus mode_NE x' y').
Proof. unfold signed. intros b x y x' y' E1 E2. rewrite !minus_val, E1, E2, xneg_swap. apply xadd_neg. Qed.
Lemma signed_minus_swap : forall b x y x' y', signed b x x' -> signed b y y' -> signed (negb b) (Bminus mode_NE x y) (Bminus mode_NE y' x').
Proof.
  unfold signed. intros b x y x' y' E1 E2. rewrite !minus_val, E1, E2, xadd_comm.
  rewrite <- xadd_neg, !xneg_comp. f_equal; f_equal; destruct b; reflexivity.
Qed.
Lemma plus_comm : forall x y : bf, Bplus mode_NE x y = Bplus mode_NE y x.
Proof.
  intros x y. apply same_sign; [apply same_val; rewrite !plus_val; apply xadd_comm|].
  destruct (is_finite x) eqn:Fx; [destruct (is_finite y) eqn:Fy|].
  - pose proof (Bplus_correct prec emax _ _ mode_NE x y Fx Fy) as K.
    pose proof (Bplus_correct prec emax _ _ mode_NE y x Fy Fx) as L. rewrite (Rplus_comm (B2R y)) in L.
    destruct (Rlt_bool _ _).
    + destruct K as (_ & _ & K), L as (_ & _ & L). rewrite K, L. destruct (Rcompare _ _); try reflexivity. apply andb_comm.
    + destruct K as [K K2], L as [L _]. rewrite overflow_NE in K, L. apply B2SF_inf in K. apply B2SF_inf in L. rewrite K, L. exact K2.
  - destruct x as [s|s| |s m e H], y as [t|t| |t n f K]; try discriminate Fx; try discriminate Fy; reflexivity.
  - destruct x as [s|s| |s m e H], y as [t|t| |t n f K]; try discriminate Fx; try reflexivity; destruct s, t; reflexivity.
Qed.

(** ** Multiplication *)
Definition xmul (v w : ext) : ext :=
  match v, w with
  | XFin r, XFin q => rounded (r * q)
  | XNan, _ | _, XNan => XNan
  | XInf s, XInf t => XInf (xorb s t)
  | XInf s, XFin q => if Req_bool q 0 then XNan else XInf (xorb s (Rlt_bool q 0))
  | XFin r, XInf t => if Req_bool r 0 then XNan else XInf (xorb (Rlt_bool r 0) t)
  end.
Lemma Rlt_bool_mult : forall r q, r <> 0 -> q <> 0 -> Rlt_bool (r * q) 0 = xorb (Rlt_bool r 0) (Rlt_bool q 0).
Proof.
  intros r q Nr Nq. destruct (Rlt_bool_spec r 0), (Rlt_bool_spec q 0); cbn.
  - apply Rlt_bool_false. nra.
  - apply Rlt_bool_true. assert (0 < q) by lra. nra.
  - apply Rlt_bool_true. assert (0 < r) by lra. nra.
  - apply Rlt_bool_false. nra.
Qed.
Lemma mult_ff : forall x y, is_finite x = true -> is_finite y = true -> val (Bmult mode_NE x y) = rounded (B2R x * B2R y).
Proof.
  intros x y Fx Fy. pose proof (Bmult_correct prec emax _ _ mode_NE x y) as K.
  change (round_mode mode_NE) with ZnearestE in K. fold (rnd (B2R x * B2R y)) in K. unfold rounded.
  destruct (Rlt_bool (Rabs (rnd (B2R x * B2R y))) (bpow radix2 emax)) eqn:E.
  - destruct K as (K1 & K2 & _). rewrite Fx, Fy in K2. rewrite val_fin by exact K2. rewrite K1. reflexivity.
  - rewrite overflow_NE in K. apply B2SF_inf in K. rewrite K. cbn [val]. f_equal.
    apply big_nz in E.
    assert (Nx : B2R x <> 0) by (intros Q; apply E; rewrite Q; ring).
    assert (Ny : B2R y <> 0) by (intros Q; apply E; rewrite Q; ring).
    rewrite Rlt_bool_mult, !sign_R by assumption. reflexivity.
Qed.
Lemma val_nz : forall s m e H, Req_bool (B2R (B754_finite s m e H)) 0 = false.
Proof. intros. apply Req_bool_false. apply B2R_finite_neq0. Qed.
Lemma sign_fin : forall s m e H, Rlt_bool (B2R (B754_finite s m e H)) 0 = s.
Proof. intros. rewrite <- sign_R; [reflexivity|reflexivity|apply B2R_finite_neq0]. Qed.
Lemma mult_val : forall x y, val (Bmult mode_NE x y) = xmul (val x) (val y).
Proof.
  intros x y. destruct (is_finite x) eqn:Fx; [destruct (is_finite y) eqn:Fy|].
  - rewrite (val_fin x Fx), (val_fin y Fy). apply mult_ff; assumption.
  - destruct x as [s|s| |s m e H], y as [t|t| |t n f K]; try discriminate Fx; try discriminate Fy; cbn [val xmul]; try reflexivity.
    + rewrite Req_bool_true by reflexivity. reflexivity.
    + rewrite val_nz, sign_fin. reflexivity.
  - destruct x as [s|s| |s m e H], y as [t|t| |t n f K]; try discriminate Fx; cbn [val xmul]; try reflexivity.
    + rewrite Req_bool_true by reflexivity. reflexivity.
    + rewrite val_nz, sign_fin. reflexivity.
Qed.
Lemma Req_bool_opp : forall r, Req_bool (- r) 0 = Req_bool r 0.
Proof.
  intros r. destruct (Req_bool_spec r 0) as [->|N]; [rewrite Ropp_0; apply Req_bool_true; reflexivity|].
  apply Req_bool_false. lra.
Qed.
Lemma xmul_neg1 : forall v w, xmul (xneg true v) w = xneg true (xmul v w).
Proof.
  intros [|s|r] [|t|q]; cbn [xneg xmul]; try reflexivity.
  - f_equal. symmetry. apply negb_xorb_l.
  - destruct (Req_bool q 0); [reflexivity|]. f_equal. symmetry. apply negb_xorb_l.
  - rewrite Req_bool_opp. destruct (Req_bool_spec r 0); [reflexivity|]. cbn. rewrite Rlt_bool_opp0 by assumption. f_equal. symmetry. apply negb_xorb_l.
  - transitivity (rounded (- (r * q))); [f_equal; ring|apply rounded_opp].
Qed.
Lemma xmul_comm : forall v w, xmul v w = xmul w v.
Proof.
  intros [|s|r] [|t|q]; cbn [xmul]; try reflexivity; rewrite ?(xorb_comm s), ?(xorb_comm t); try reflexivity.
  rewrite Rmult_comm. reflexivity.
Qed.
Lemma xmul_neg : forall b c v w, xmul (xneg b v) (xneg c w) = xneg (xorb b c) (xmul v w).
Proof.
  intros [|] [|] v w; cbn [xorb].
  - rewrite xmul_neg1, xmul_comm, xmul_neg1, xneg_comp, xmul_comm. reflexivity.
  - apply xmul_neg1.
  - change (xneg false v) with v. rewrite xmul_comm, xmul_neg1, xmul_comm. reflexivity.
  - reflexivity.
Qed.
Lemma signed_mult : forall b c x y x' y', signed b x x' -> signed c y y' -> signed (xorb b c) (Bmult mode_NE x y) (Bmult mode_NE x' y').
Proof. unfold signed. intros b c x y x' y' E1 E2. rewrite !mult_val, E1, E2. apply xmul_neg. Qed.
Lemma square_sign : forall x : bf, is_nan (Bmult mode_NE x x) = false -> Bsign (Bmult mode_NE x x) = false.
Proof.
  intros x N. pose proof (Bmult_correct prec emax _ _ mode_NE x x) as K. destruct (Rlt_bool _ _).
  - destruct K as (_ & _ & K). rewrite (K N). apply xorb_nilpotent.
  - rewrite overflow_NE in K. apply B2SF_inf in K. rewrite K. apply xorb_nilpotent.
Qed.
Lemma signed_square : forall b x x', signed b x x' -> Bmult mode_NE x x = Bmult mode_NE x' x'.
Proof.
  intros b x x' E. pose proof (signed_mult b b x x x' x' E E) as K. rewrite xorb_nilpotent in K. apply signed_same in K.
  apply same_sign; [exact K|]. destruct K as [K|(s & t & K1 & K2)]; [rewrite K; reflexivity|].
  rewrite !square_sign; [reflexivity|rewrite K2; reflexivity|rewrite K1; reflexivity].
Qed.

(** ** Division by the same number *)
Definition xdiv (v : ext) (k : bf) : ext :=
  match k with
  | B754_nan => XNan
  | B754_infinity _ => match v with XFin _ => XFin 0 | _ => XNan end
  | B754_zero t =>
      match v with
      | XNan => XNan
      | XInf s => XInf (xorb s t)
      | XFin r => if Req_bool r 0 then XNan else XInf (xorb (Rlt_bool r 0) t)
      end
  | B754_finite t _ _ _ =>
      match v with
      | XNan => XNan
      | XInf s => XInf (xorb s t)
      | XFin r => rounded (r / B2R k)
      end
  end.
Lemma Rlt_bool_inv : forall r, r <> 0 -> Rlt_bool (/ r) 0 = Rlt_bool r 0.
Proof.
  intros r N. destruct (Rlt_bool_spec r 0).
  - apply Rlt_bool_true. apply Rinv_lt_0_compat. assumption.
  - apply Rlt_bool_false. apply Rlt_le. apply Rinv_0_lt_compat. lra.
Qed.
Lemma div_ff : forall x y, is_finite x = true -> is_finite y = true -> B2R y <> 0 -> val (Bdiv mode_NE x y) = rounded (B2R x / B2R y).
Proof.
  intros x y Fx Fy Ny. pose proof (Bdiv_correct prec emax _ _ mode_NE x y Ny) as K.
  change (round_mode mode_NE) with ZnearestE in K. fold (rnd (B2R x / B2R y)) in K. unfold rounded.
  destruct (Rlt_bool (Rabs (rnd (B2R x / B2R y))) (bpow radix2 emax)) eqn:E.
  - destruct K as (K1 & K2 & _). rewrite Fx in K2. rewrite val_fin by exact K2. rewrite K1. reflexivity.
  - rewrite overflow_NE in K. apply B2SF_inf in K. rewrite K. cbn [val]. f_equal.
    apply big_nz in E.
    assert (Nx : B2R x <> 0) by (intros Q; apply E; rewrite Q; unfold Rdiv; ring).
    unfold Rdiv. rewrite Rlt_bool_mult by (assumption || apply Rinv_neq_0_compat; assumption).
    rewrite Rlt_bool_inv, !sign_R by assumption. reflexivity.
Qed.
Lemma div_val : forall x k, val (Bdiv mode_NE x k) = xdiv (val x) k.
Proof.
  intros x k. destruct k as [t|t| |t n f K].
  - destruct x as [s|s| |s m e H]; cbn [val xdiv]; try reflexivity.
    + rewrite Req_bool_true by reflexivity. reflexivity.
    + rewrite val_nz, sign_fin. reflexivity.
  - destruct x as [s|s| |s m e H]; reflexivity.
  - destruct x as [s|s| |s m e H]; reflexivity.
  - destruct x as [s|s| |s m e H].
    + rewrite div_ff by (reflexivity || apply B2R_finite_neq0). reflexivity.
    + reflexivity.
    + reflexivity.
    + rewrite div_ff by (reflexivity || apply B2R_finite_neq0). reflexivity.
Qed.
Lemma xdiv_neg : forall b v k, xdiv (xneg b v) k = xneg b (xdiv v k).
Proof.
  intros [|] v k; [|reflexivity]. destruct k as [t|t| |t n f K], v as [|s|r]; cbn [xneg xdiv]; rewrite ?Ropp_0; try reflexivity.
  - f_equal. symmetry. apply negb_xorb_l.
  - rewrite Req_bool_opp. destruct (Req_bool_spec r 0); [reflexivity|]. cbn. rewrite Rlt_bool_opp0 by assumption. f_equal. symmetry. apply negb_xorb_l.
  - f_equal. symmetry. apply negb_xorb_l.
  - transitivity (rounded (- (r / B2R (B754_finite t n f K)))); [f_equal; unfold Rdiv; ring|apply rounded_opp].
Qed.
Lemma signed_div : forall b x x' k, signed b x x' -> signed b (Bdiv mode_NE x k) (Bdiv mode_NE x' k).
Proof. unfold signed. intros b x x' k E. rewrite !div_val, E. apply xdiv_neg. Qed.

(** ** Comparisons and tests *)
Lemma same_ltb : forall x y x' y' : bf, same x x' -> same y y' -> Bltb x y = Bltb x' y'.
Proof.
  intros x y x' y' [->|(s & t & -> & ->)] [->|(u & v & -> & ->)]; try reflexivity;
    destruct x' as [?|[|]| |[|] ? ? ?] || destruct y' as [?|[|]| |[|] ? ? ?]; reflexivity.
Qed.
Lemma same_eqb : forall x y x' y' : bf, same x x' -> same y y' -> Beqb x y = Beqb x' y'.
Proof.
  intros x y x' y' [->|(s & t & -> & ->)] [->|(u & v & -> & ->)]; try reflexivity;
    destruct x' as [?|[|]| |[|] ? ? ?] || destruct y' as [?|[|]| |[|] ? ? ?]; reflexivity.
Qed.
Lemma opp_eqb : forall x y : bf, Beqb (Bopp x) (Bopp y) = Beqb x y.
Proof.
  intros x y. destruct (is_finite x) eqn:Fx; [destruct (is_finite y) eqn:Fy|].
  - destruct (Beqb x y) eqn:E.
    + apply eqb_R in E; try assumption. apply eqb_R; rewrite ?is_finite_Bopp; try assumption. rewrite !B2R_Bopp, E. reflexivity.
    + apply eqb_false_R in E; try assumption. apply eqb_false_R; rewrite ?is_finite_Bopp; try assumption. rewrite !B2R_Bopp. lra.
  - destruct x as [s|s| |s m e H], y as [t|t| |t n f K]; try discriminate Fx; try discriminate Fy; try reflexivity; try (destruct s, t; reflexivity); destruct t; reflexivity.
  - destruct x as [s|s| |s m e H], y as [t|t| |t n f K]; try discriminate Fx; try reflexivity; try (destruct s, t; reflexivity); destruct s; reflexivity.
Qed.
Lemma signed_cases : forall b x y, signed b x y -> same (if b then Bopp x else x) y.
Proof. intros b x y E. apply same_val. unfold signed in E. rewrite E. destruct b; [apply val_opp|reflexivity]. Qed.
Lemma signed_eqb : forall b x y x' y', signed b x x' -> signed b y y' -> Beqb x y = Beqb x' y'.
Proof.
  intros b x y x' y' E1 E2. apply signed_cases in E1. apply signed_cases in E2.
  rewrite <- (same_eqb _ _ _ _ E1 E2). destruct b; [symmetry; apply opp_eqb|reflexivity].
Qed.
Lemma signed_nan : forall b x y, signed b x y -> is_nan x = is_nan y.
Proof.
  intros b x y E. apply signed_cases in E. destruct E as [<-|(s & t & E & ->)].
  - destruct b, x; reflexivity.
  - destruct b, x; try discriminate E; reflexivity.
Qed.
Lemma signed_isinf : forall b x y, signed b x y -> is_inf x = is_inf y.
Proof.
  intros b x y E. apply signed_cases in E. destruct E as [<-|(s & t & E & ->)].
  - destruct b, x; reflexivity.
  - destruct b, x; try discriminate E; reflexivity.
Qed.
Lemma same_abs : forall x y, same x y -> Babs x = Babs y.
Proof. intros x y [->|(s & t & -> & ->)]; reflexivity. Qed.
Lemma same_nz : forall x y z, same x y -> Beqb x (B754_zero z) = false -> x = y.
Proof. intros x y z [E|(s & t & -> & ->)] K; [exact E|]. destruct s, z; discriminate K. Qed.
Lemma signed_neg : forall b x y, signed b x y -> signed (negb b) (Bopp x) y.
Proof. unfold signed. intros b x y ->. rewrite val_opp, xneg_comp. f_equal. destruct b; reflexivity. Qed.
Lemma signed_neg' : forall b x y, signed b x y -> signed (negb b) x (Bopp y).
Proof. unfold signed. intros b x y E. rewrite val_opp, E, xneg_comp. f_equal; destruct b; reflexivity. Qed.

End Generic.

(** ** Conversions between the two formats, and hypot *)
Section Convert.
Variables p1 e1 p2 e2 : Z.
Context (Hp1 : FLX.Prec_gt_0 p1) (Hm1 : Prec_lt_emax p1 e1) (Hp2 : FLX.Prec_gt_0 p2) (Hm2 : Prec_lt_emax p2 e2).
Definition xconv (v : ext) : ext := match v with XFin r => rounded p2 e2 r | w => w end.
Lemma xconv_neg : forall b v, xconv (xneg b v) = xneg b (xconv v).
Proof. intros [|] [|s|r]; try reflexivity. cbn [xneg xconv]. apply rounded_opp; assumption. Qed.
Lemma normalize_val : forall z e s, val p2 e2 (binary_normalize p2 e2 _ _ mode_NE z e s) = rounded p2 e2 (F2R (Float radix2 z e)).
Proof.
  intros z e s. pose proof (binary_normalize_correct p2 e2 _ _ mode_NE z e s) as K. cbv zeta in K.
  set (r := F2R {| Fnum := z; Fexp := e |}) in *.
  change (round_mode mode_NE) with ZnearestE in K. fold (rnd p2 e2 r) in K. unfold rounded.
  destruct (Rlt_bool _ _).
  - destruct K as (K1 & K2 & _). rewrite val_fin by exact K2. rewrite K1. reflexivity.
  - rewrite overflow_NE in K. apply B2SF_inf in K. rewrite K. reflexivity.
Qed.
End Convert.
Lemma to64_val : forall x, val 53 1024 (b32_to_b64 x) = xconv 53 1024 (val 24 128 x).
Proof.
  intros [s|s| |s m e H]; cbn [b32_to_b64 val xconv]; try reflexivity.
  - symmetry. apply rounded_0.
  - apply normalize_val.
Qed.
Lemma to32_val : forall x, val 24 128 (b64_to_b32 x) = xconv 24 128 (val 53 1024 x).
Proof.
  intros [s|s| |s m e H]; cbn [b64_to_b32 val xconv]; try reflexivity.
  - symmetry. apply rounded_0.
  - apply normalize_val.
Qed.
Lemma signed_to64 : forall b x y, signed 24 128 b x y -> signed 53 1024 b (b32_to_b64 x) (b32_to_b64 y).
Proof. unfold signed. intros b x y E. rewrite !to64_val, E. apply xconv_neg. Qed.
Lemma signed_to32 : forall b x y, signed 53 1024 b x y -> signed 24 128 b (b64_to_b32 x) (b64_to_b32 y).
Proof. unfold signed. intros b x y E. rewrite !to32_val, E. apply xconv_neg. Qed.
Lemma hypot_comm : forall x y, b_hypot x y = b_hypot y x.
Proof.
  intros x y. unfold b_hypot. rewrite (orb_comm (is_inf x)). destruct (is_inf y || is_inf x); [reflexivity|]. cbv zeta.
  rewrite (plus_comm 53 1024). reflexivity.
Qed.
Lemma signed_hypot : forall b c x y x' y', signed 24 128 b x x' -> signed 24 128 c y y' -> b_hypot x y = b_hypot x' y'.
Proof.
  intros b c x y x' y' E1 E2. unfold b_hypot. rewrite (signed_isinf _ _ _ _ _ E1), (signed_isinf _ _ _ _ _ E2).
  destruct (is_inf x' || is_inf y'); [reflexivity|]. cbv zeta.
  rewrite (signed_square 53 1024 _ _ _ _ _ (signed_to64 _ _ _ E1)), (signed_square 53 1024 _ _ _ _ _ (signed_to64 _ _ _ E2)).
  reflexivity.
Qed.
