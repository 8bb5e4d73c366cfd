(** * Facts about IEEE arithmetic (Flocq), for the theorems about [ieee]. *)
From Coq Require Import ZArith Bool Reals Lra Lia Psatz.
From Flocq Require Import Core.Core IEEE754.BinarySingleNaN.
From Verif Require Import Arith Ieee.
Open Scope R_scope.

Section Generic.
Variables prec emax : Z.
Context (Hp : FLX.Prec_gt_0 prec) (Hm : Prec_lt_emax prec emax).
Notation bf := (binary_float prec emax).
Notation fexp := (SpecFloat.fexp prec emax).
Notation B2R := (@B2R prec emax).

(** Rounding to nearest even, as a function on reals. *)
Definition rnd (x : R) : R := round radix2 fexp ZnearestE x.
Definition fmt (x : R) : Prop := generic_format radix2 fexp x.

Local Instance vexp : Valid_exp fexp := fexp_correct prec emax Hp.
Local Instance mexp : Monotone_exp fexp := fexp_monotone prec emax.

Lemma fmt_B2R : forall x : bf, fmt (B2R x).
Proof. intros x. apply generic_format_B2R. Qed.
Lemma rnd_fmt : forall x, fmt (rnd x).
Proof. intros x. apply generic_format_round; auto with typeclass_instances. Qed.
Lemma rnd_id : forall x, fmt x -> rnd x = x.
Proof. intros x H. apply round_generic; auto with typeclass_instances. Qed.
Lemma rnd_le : forall x y, x <= y -> rnd x <= rnd y.
Proof. intros. apply round_le; auto with typeclass_instances. Qed.
Lemma rnd_0 : rnd 0 = 0.
Proof. apply round_0; auto with typeclass_instances. Qed.
Lemma fmt_0 : fmt 0.
Proof. apply generic_format_0. Qed.
Lemma rnd_ge0 : forall x, 0 <= x -> 0 <= rnd x.
Proof. intros x H. rewrite <- rnd_0. apply rnd_le. exact H. Qed.
Lemma rnd_le0 : forall x, x <= 0 -> rnd x <= 0.
Proof. intros x H. rewrite <- rnd_0. apply rnd_le. exact H. Qed.
Lemma rnd_le_fmt : forall x b, fmt b -> x <= b -> rnd x <= b.
Proof. intros x b F H. rewrite <- (rnd_id b F). apply rnd_le. exact H. Qed.
Lemma rnd_ge_fmt : forall x b, fmt b -> b <= x -> b <= rnd x.
Proof. intros x b F H. rewrite <- (rnd_id b F). apply rnd_le. exact H. Qed.
Lemma fmt_opp : forall x, fmt x -> fmt (- x).
Proof. intros. apply generic_format_opp. assumption. Qed.
Lemma rnd_opp : forall x, rnd (- x) = - rnd x.
Proof. intros. apply round_NE_opp. Qed.
Lemma fmt_abs : forall x, fmt x -> fmt (Rabs x).
Proof. intros. apply generic_format_abs. assumption. Qed.
Lemma rnd_abs_le : forall x b, fmt b -> Rabs x <= b -> Rabs (rnd x) <= b.
Proof.
  intros x b F H. apply Rabs_le_inv in H. apply Rabs_le. split.
  - apply rnd_ge_fmt; [apply fmt_opp; exact F|lra].
  - apply rnd_le_fmt; [exact F|lra].
Qed.
Lemma B2R_lt_emax : forall x : bf, Rabs (B2R x) < bpow radix2 emax.
Proof. intros. apply abs_B2R_lt_emax. Qed.

Lemma B2SF_inf : forall (x : bf) s, B2SF x = SpecFloat.S754_infinity s -> x = B754_infinity s.
Proof. intros [s|s| |s m e H] t E; try discriminate E. cbn in E. congruence. Qed.
Lemma overflow_NE : forall s, binary_overflow prec emax mode_NE s = SpecFloat.S754_infinity s.
Proof. intros s. reflexivity. Qed.

Definition small (r : R) : Prop := Rabs (rnd r) < bpow radix2 emax.
Lemma small_bound : forall r (x : bf), Rabs r <= Rabs (B2R x) -> small r.
Proof.
  intros r x H. eapply Rle_lt_trans; [|apply (B2R_lt_emax x)].
  apply rnd_abs_le; [apply fmt_abs; apply fmt_B2R|exact H].
Qed.
Lemma small_fmt_bound : forall r b, fmt b -> b < bpow radix2 emax -> Rabs r <= b -> small r.
Proof. intros r b F L H. eapply Rle_lt_trans; [apply rnd_abs_le; eassumption|exact L]. Qed.

(** Finite results. *)
Lemma plus_fin : forall x y : bf, is_finite x = true -> is_finite y = true -> small (B2R x + B2R y) ->
  is_finite (Bplus mode_NE x y) = true /\ B2R (Bplus mode_NE x y) = rnd (B2R x + B2R y).
Proof.
  intros x y Fx Fy S. pose proof (Bplus_correct prec emax _ _ mode_NE x y Fx Fy) as K.
  rewrite Rlt_bool_true in K by exact S. destruct K as (K1 & K2 & _). auto.
Qed.
Lemma minus_fin : forall x y : bf, is_finite x = true -> is_finite y = true -> small (B2R x - B2R y) ->
  is_finite (Bminus mode_NE x y) = true /\ B2R (Bminus mode_NE x y) = rnd (B2R x - B2R y).
Proof.
  intros x y Fx Fy S. pose proof (Bminus_correct prec emax _ _ mode_NE x y Fx Fy) as K.
  rewrite Rlt_bool_true in K by exact S. destruct K as (K1 & K2 & _). auto.
Qed.
Lemma mult_fin : forall x y : bf, is_finite x = true -> is_finite y = true -> small (B2R x * B2R y) ->
  is_finite (Bmult mode_NE x y) = true /\ B2R (Bmult mode_NE x y) = rnd (B2R x * B2R y).
Proof.
  intros x y Fx Fy S. pose proof (Bmult_correct prec emax _ _ mode_NE x y) as K.
  rewrite Rlt_bool_true in K by exact S. destruct K as (K1 & K2 & _). rewrite Fx, Fy in K2. auto.
Qed.
Lemma div_fin : forall x y : bf, is_finite x = true -> B2R y <> 0 -> small (B2R x / B2R y) ->
  is_finite (Bdiv mode_NE x y) = true /\ B2R (Bdiv mode_NE x y) = rnd (B2R x / B2R y).
Proof.
  intros x y Fx Fy S. pose proof (Bdiv_correct prec emax _ _ mode_NE x y Fy) as K.
  rewrite Rlt_bool_true in K by exact S. destruct K as (K1 & K2 & _). rewrite Fx in K2. auto.
Qed.

Lemma minus_self : forall x : bf, is_finite x = true -> Bminus mode_NE x x = B754_zero false.
Proof.
  intros x Fx. assert (S : small (B2R x - B2R x)).
  { unfold small. replace (B2R x - B2R x) with 0 by ring. rewrite rnd_0, Rabs_R0. apply bpow_gt_0. }
  pose proof (Bminus_correct prec emax _ _ mode_NE x x Fx Fx) as K.
  rewrite Rlt_bool_true in K by exact S. destruct K as (K1 & K2 & K3).
  replace (B2R x - B2R x) with 0 in * by ring. rewrite Rcompare_Eq in K3 by reflexivity.
  change (round radix2 fexp (round_mode mode_NE) 0) with (rnd 0) in K1. rewrite rnd_0 in K1.
  destruct (Bminus mode_NE x x) as [s|s| |s m e H]; try discriminate K2.
  - cbn in K3. destruct (Bsign x); cbn in K3; subst; reflexivity.
  - exfalso. cbn in K1. apply (F2R_neq_0 radix2 (Float radix2 (cond_Zopp s (Z.pos m)) e)) in K1; [exact K1|].
    destruct s; discriminate.
Qed.

(** Signs with infinities. *)
Definition nonneg (x : bf) : Prop :=
  match x with
  | B754_nan => False
  | B754_infinity s => s = false
  | _ => 0 <= B2R x
  end.
Definition pos (x : bf) : Prop :=
  match x with
  | B754_nan => False
  | B754_infinity s => s = false
  | _ => 0 < B2R x
  end.

Lemma B2R_finite_sign : forall s m e H, 0 < B2R (B754_finite s m e H) <-> s = false.
Proof.
  intros s m e H. cbn. split.
  - intros K. destruct s; [|reflexivity]. exfalso.
    assert (F2R (Float radix2 (cond_Zopp true (Z.pos m)) e) < 0) by (apply F2R_lt_0; reflexivity). lra.
  - intros ->. apply F2R_gt_0. reflexivity.
Qed.
Lemma B2R_finite_neq0 : forall s m e H, B2R (B754_finite s m e H) <> 0.
Proof. intros s m e H. cbn. apply F2R_neq_0. destruct s; discriminate. Qed.
Lemma B2R_finite_ge : forall s m e H, 0 <= B2R (B754_finite s m e H) <-> s = false.
Proof.
  intros s m e H. rewrite <- (B2R_finite_sign s m e H). pose proof (B2R_finite_neq0 s m e H). lra.
Qed.

Lemma nonneg_fin : forall x, is_finite x = true -> 0 <= B2R x -> nonneg x.
Proof. intros [s|s| |s m e H] F K; try discriminate F; exact K. Qed.
Lemma pos_nonneg : forall x, pos x -> nonneg x.
Proof. intros [s|s| |s m e H] P; unfold pos, nonneg in *; try assumption; lra. Qed.
Lemma nonneg_not_nan : forall x, nonneg x -> is_nan x = false.
Proof. intros [s|s| |s m e H] P; try reflexivity. contradiction P. Qed.

(** A number that is finite and equal to zero, or nonneg and not. *)
Lemma nonneg_sign : forall x, nonneg x -> B2R x = 0 /\ is_finite x = true \/ Bsign x = false /\ (is_finite x = true -> 0 < B2R x).
Proof.
  intros [s|s| |s m e H] P; cbn in P.
  - left. auto.
  - right. subst. split; [reflexivity|discriminate].
  - contradiction P.
  - right. pose proof (B2R_finite_ge s m e H) as K. cbn in K. split; [cbn; tauto|].
    intros _. apply (B2R_finite_sign s m e H). tauto.
Qed.

Lemma mult_nonneg : forall x y, nonneg x -> nonneg y ->
  (is_finite x = true \/ pos y) -> (is_finite y = true \/ pos x) ->
  nonneg (Bmult mode_NE x y).
Proof.
  intros x y Nx Ny Ex Ey.
  pose proof (Bmult_correct prec emax _ _ mode_NE x y) as K.
  destruct (is_finite x) eqn:Fx; destruct (is_finite y) eqn:Fy.
  - assert (Px : 0 <= B2R x) by (destruct x; try discriminate Fx; exact Nx).
    assert (Py : 0 <= B2R y) by (destruct y; try discriminate Fy; exact Ny).
    destruct (Rlt_bool_spec (Rabs (round radix2 fexp (round_mode mode_NE) (B2R x * B2R y))) (bpow radix2 emax)) as [L|L].
    + destruct K as (K1 & K2 & _). apply nonneg_fin; [exact K2|]. rewrite K1. apply rnd_ge0. apply Rmult_le_pos; assumption.
    + rewrite overflow_NE in K. apply B2SF_inf in K. rewrite K. cbn.
      destruct (nonneg_sign x Nx) as [[Zx _]|[Sx _]].
      { exfalso. rewrite Zx, Rmult_0_l in L. change (round radix2 fexp (round_mode mode_NE) 0) with (rnd 0) in L.
        rewrite rnd_0, Rabs_R0 in L. pose proof (bpow_gt_0 radix2 emax). lra. }
      destruct (nonneg_sign y Ny) as [[Zy _]|[Sy _]].
      { exfalso. rewrite Zy, Rmult_0_r in L. change (round radix2 fexp (round_mode mode_NE) 0) with (rnd 0) in L.
        rewrite rnd_0, Rabs_R0 in L. pose proof (bpow_gt_0 radix2 emax). lra. }
      rewrite Sx, Sy. reflexivity.
  - destruct Ey as [Ey|Ey]; [discriminate Ey|].
    destruct y as [s|s| |s m e H]; try discriminate Fy; try contradiction Ny. cbn in Ny. subst s.
    destruct x as [s|s| |s m e H]; try discriminate Fx; try contradiction Nx.
    + unfold pos in Ey. cbn in Ey. lra.
    + apply (B2R_finite_sign s m e H) in Ey. subst s. reflexivity.
  - destruct Ex as [Ex|Ex]; [discriminate Ex|].
    destruct x as [s|s| |s m e H]; try discriminate Fx; try contradiction Nx. cbn in Nx. subst s.
    destruct y as [s|s| |s m e H]; try discriminate Fy; try contradiction Ny.
    + unfold pos in Ex. cbn in Ex. lra.
    + apply (B2R_finite_sign s m e H) in Ex. subst s. reflexivity.
  - destruct x as [s|s| |s m e H]; try discriminate Fx; try contradiction Nx.
    destruct y as [s2|s2| |s2 m2 e2 H2]; try discriminate Fy; try contradiction Ny. cbn in *. subst. reflexivity.
Qed.

Lemma plus_nonneg : forall x y, nonneg x -> nonneg y -> nonneg (Bplus mode_NE x y).
Proof.
  intros x y Nx Ny.
  destruct (is_finite x) eqn:Fx; destruct (is_finite y) eqn:Fy.
  - pose proof (Bplus_correct prec emax _ _ mode_NE x y Fx Fy) as K.
    assert (Px : 0 <= B2R x) by (destruct x; try discriminate Fx; exact Nx).
    assert (Py : 0 <= B2R y) by (destruct y; try discriminate Fy; exact Ny).
    destruct (Rlt_bool_spec (Rabs (round radix2 fexp (round_mode mode_NE) (B2R x + B2R y))) (bpow radix2 emax)) as [L|L].
    + destruct K as (K1 & K2 & _). apply nonneg_fin; [exact K2|]. rewrite K1. apply rnd_ge0. lra.
    + destruct K as (K & KS). rewrite overflow_NE in K. apply B2SF_inf in K. rewrite K. cbn.
      destruct (nonneg_sign x Nx) as [[Zx _]|[Sx _]]; [|exact Sx].
      destruct (nonneg_sign y Ny) as [[Zy _]|[Sy _]]; [|congruence].
      exfalso. rewrite Zx, Zy, Rplus_0_l in L. change (round radix2 fexp (round_mode mode_NE) 0) with (rnd 0) in L.
      rewrite rnd_0, Rabs_R0 in L. pose proof (bpow_gt_0 radix2 emax). lra.
  - destruct y as [s|s| |s m e H]; try discriminate Fy; try contradiction Ny. cbn in Ny. subst s.
    destruct x as [s|s| |s m e H]; try discriminate Fx; reflexivity.
  - destruct x as [s|s| |s m e H]; try discriminate Fx; try contradiction Nx. cbn in Nx. subst s.
    destruct y as [s|s| |s m e H]; try discriminate Fy; reflexivity.
  - destruct x as [s|s| |s m e H]; try discriminate Fx; try contradiction Nx.
    destruct y as [s2|s2| |s2 m2 e2 H2]; try discriminate Fy; try contradiction Ny. cbn in *. subst. reflexivity.
Qed.

(** nonneg / positive finite. *)
Lemma div_nonneg : forall x y, nonneg x -> is_finite y = true -> 0 < B2R y -> nonneg (Bdiv mode_NE x y).
Proof.
  intros x y Nx Fy Py.
  destruct (is_finite x) eqn:Fx.
  - assert (Px : 0 <= B2R x) by (destruct x; try discriminate Fx; exact Nx).
    assert (Hy : B2R y <> 0) by lra.
    pose proof (Bdiv_correct prec emax _ _ mode_NE x y Hy) as K.
    destruct (Rlt_bool_spec (Rabs (round radix2 fexp (round_mode mode_NE) (B2R x / B2R y))) (bpow radix2 emax)) as [L|L].
    + destruct K as (K1 & K2 & _). apply nonneg_fin; [congruence|]. rewrite K1. apply rnd_ge0.
      apply Rmult_le_pos; [exact Px|]. left. apply Rinv_0_lt_compat. exact Py.
    + rewrite overflow_NE in K. apply B2SF_inf in K. rewrite K. cbn.
      destruct (nonneg_sign x Nx) as [[Zx _]|[Sx _]].
      { exfalso. rewrite Zx in L. unfold Rdiv in L. rewrite Rmult_0_l in L.
        change (round radix2 fexp (round_mode mode_NE) 0) with (rnd 0) in L.
        rewrite rnd_0, Rabs_R0 in L. pose proof (bpow_gt_0 radix2 emax). lra. }
      rewrite Sx. destruct y as [s|s| |s m e H]; try discriminate Fy; [cbn in Py; lra|].
      apply (B2R_finite_sign s m e H) in Py. subst s. reflexivity.
  - destruct x as [s|s| |s m e H]; try discriminate Fx; try contradiction Nx. cbn in Nx. subst s.
    destruct y as [s|s| |s m e H]; try discriminate Fy; [cbn in Py; lra|].
    apply (B2R_finite_sign s m e H) in Py. subst s. reflexivity.
Qed.

(** x - y for finite x >= y. *)
Lemma minus_nonneg : forall x y : bf, is_finite x = true -> is_finite y = true -> B2R y <= B2R x -> nonneg (Bminus mode_NE x y).
Proof.
  intros x y Fx Fy L0. pose proof (Bminus_correct prec emax _ _ mode_NE x y Fx Fy) as K.
  destruct (Rlt_bool_spec (Rabs (round radix2 fexp (round_mode mode_NE) (B2R x - B2R y))) (bpow radix2 emax)) as [L|L].
  - destruct K as (K1 & K2 & _). apply nonneg_fin; [exact K2|]. rewrite K1. apply rnd_ge0. lra.
  - destruct K as (K & KS). rewrite overflow_NE in K. apply B2SF_inf in K. rewrite K. cbn.
    destruct (Bsign x) eqn:Sx; [|reflexivity]. exfalso.
    assert (Bsign y = false) by (destruct (Bsign y); [discriminate KS|reflexivity]).
    assert (X0 : B2R x <= 0).
    { destruct x as [s|s| |s m e H0]; try discriminate Fx; cbn; [lra|]. cbn in Sx. subst s.
      left. apply F2R_lt_0. reflexivity. }
    assert (Y0 : 0 <= B2R y).
    { destruct y as [s|s| |s m e H0]; try discriminate Fy; cbn; [lra|]. cbn in H. subst s.
      left. apply F2R_gt_0. reflexivity. }
    assert (E : B2R x - B2R y = 0) by lra. rewrite E in L. change (round radix2 fexp (round_mode mode_NE) 0) with (rnd 0) in L.
    rewrite rnd_0, Rabs_R0 in L. pose proof (bpow_gt_0 radix2 emax). lra.
Qed.

(** Comparisons. *)
Lemma ltb_R : forall x y : bf, is_finite x = true -> is_finite y = true -> (Bltb x y = true <-> B2R x < B2R y).
Proof. intros x y Fx Fy. rewrite Bltb_correct by assumption. destruct (Rlt_bool_spec (B2R x) (B2R y)); split; intros; try discriminate; try lra; auto. Qed.
Lemma leb_R : forall x y : bf, is_finite x = true -> is_finite y = true -> (Bleb x y = true <-> B2R x <= B2R y).
Proof. intros x y Fx Fy. rewrite Bleb_correct by assumption. destruct (Rle_bool_spec (B2R x) (B2R y)); split; intros; try discriminate; try lra; auto. Qed.
Lemma eqb_R : forall x y : bf, is_finite x = true -> is_finite y = true -> (Beqb x y = true <-> B2R x = B2R y).
Proof. intros x y Fx Fy. rewrite Beqb_correct by assumption. destruct (Req_bool_spec (B2R x) (B2R y)); split; intros; try discriminate; try lra; auto. Qed.
Lemma ltb_false_R : forall x y : bf, is_finite x = true -> is_finite y = true -> (Bltb x y = false <-> B2R y <= B2R x).
Proof. intros x y Fx Fy. rewrite Bltb_correct by assumption. destruct (Rlt_bool_spec (B2R x) (B2R y)); split; intros; try discriminate; try lra; auto. Qed.
Lemma eqb_false_R : forall x y : bf, is_finite x = true -> is_finite y = true -> (Beqb x y = false <-> B2R x <> B2R y).
Proof. intros x y Fx Fy. rewrite Beqb_correct by assumption. destruct (Req_bool_spec (B2R x) (B2R y)); split; intros; try discriminate; try lra; auto. Qed.

Lemma ltb_nan_l : forall y : bf, Bltb B754_nan y = false.
Proof. intros [s|s| |s m e H]; reflexivity. Qed.
Lemma ltb_nan_r : forall y : bf, Bltb y B754_nan = false.
Proof. intros [s|[]| |s m e H]; reflexivity. Qed.
Lemma leb_nan_l : forall y : bf, Bleb B754_nan y = false.
Proof. intros [s|s| |s m e H]; reflexivity. Qed.
Lemma leb_nan_r : forall y : bf, Bleb y B754_nan = false.
Proof. intros [s|[]| |s m e H]; reflexivity. Qed.
(** Comparisons of a possibly infinite x with a finite y. *)
Lemma leb_nonneg : forall x, Bleb (B754_zero false) x = true <-> nonneg x.
Proof.
  intros [s|s| |s m e H]; cbn; split; try discriminate; try contradiction; auto; try lra.
  - destruct s; [discriminate|reflexivity].
  - intros ->. reflexivity.
  - intros K. destruct s; [discriminate K|]. left. apply F2R_gt_0. reflexivity.
  - intros K. apply (B2R_finite_ge s m e H) in K. subst s. reflexivity.
Qed.
Lemma ltb0_false : forall x, is_nan x = false -> (Bltb x (B754_zero false) = false <-> nonneg x).
Proof.
  intros [s|s| |s m e H] N; try discriminate N; cbn; split; try discriminate; try contradiction; auto; try lra.
  - destruct s; [discriminate|reflexivity].
  - intros ->. reflexivity.
  - intros K. destruct s; [discriminate K|]. left. apply F2R_gt_0. reflexivity.
  - intros K. apply (B2R_finite_ge s m e H) in K. subst s. reflexivity.
Qed.
Lemma zero_sign_ltb : forall (x : bf) s, Bltb x (B754_zero s) = Bltb x (B754_zero false).
Proof. intros x s. destruct x; reflexivity. Qed.
Lemma le_finite : forall x y : bf, nonneg x -> is_finite y = true -> Bleb x y = true -> is_finite x = true.
Proof. intros [s|s| |s m e H] y N F L; cbn in N; try reflexivity; try contradiction. subst s. destruct y as [|[]| |]; try discriminate. Qed.

(** Ceiling. *)
Lemma round_FIX0 : forall f x, round radix2 (FIX_exp 0) f x = IZR (f x).
Proof.
  intros f x. unfold round, scaled_mantissa, F2R, cexp, FIX_exp. cbn.
  rewrite !Rmult_1_r. reflexivity.
Qed.
Lemma ceil_fin : forall x : bf, is_finite x = true ->
  is_finite (Bnearbyint mode_UP x) = true /\ B2R (Bnearbyint mode_UP x) = IZR (Zceil (B2R x)).
Proof.
  intros x F. destruct (Bnearbyint_correct prec emax _ mode_UP x) as (K1 & K2 & _).
  split; [congruence|]. rewrite K1, round_FIX0. reflexivity.
Qed.
Lemma ceil_nonneg : forall x : bf, nonneg x -> nonneg (Bnearbyint mode_UP x).
Proof.
  intros x N. destruct (is_finite x) eqn:F.
  - destruct (ceil_fin x F) as [K1 K2]. apply nonneg_fin; [exact K1|]. rewrite K2.
    assert (0 <= B2R x) by (destruct x; try discriminate F; exact N).
    apply IZR_le. rewrite <- (Zceil_IZR 0). apply Zceil_le. exact H.
  - destruct x as [s|s| |s m e H]; try discriminate F; exact N.
Qed.
Lemma trunc_fin : forall x : bf, Btrunc x = Ztrunc (B2R x).
Proof. intros x. apply eq_IZR. rewrite (Btrunc_correct prec emax _ x), round_FIX0. reflexivity. Qed.

(** Square root. *)
Lemma sqrt_fin : forall x : bf, is_finite x = true -> 0 <= B2R x ->
  is_finite (Bsqrt mode_NE x) = true /\ B2R (Bsqrt mode_NE x) = rnd (sqrt (B2R x)).
Proof.
  intros x F P. destruct (Bsqrt_correct prec emax _ _ mode_NE x) as (K1 & K2 & _). split; [|exact K1].
  rewrite K2. destruct x as [s|s| |s m e H]; try discriminate F; [reflexivity|].
  apply (B2R_finite_ge s m e H) in P. subst s. reflexivity.
Qed.

(** binary_normalize of an integer. *)
Lemma normalize_fin : forall z e s, small (F2R (Float radix2 z e)) ->
  let x := binary_normalize prec emax _ _ mode_NE z e s in
  is_finite x = true /\ B2R x = rnd (F2R (Float radix2 z e)).
Proof.
  intros z e s S x. pose proof (binary_normalize_correct prec emax _ _ mode_NE z e s) as K. cbv zeta in K.
  rewrite Rlt_bool_true in K by exact S. destruct K as (K1 & K2 & _). auto.
Qed.

End Generic.
