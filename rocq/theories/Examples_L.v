(** * Concrete cases for C53, and the overflow of a magnitude. *)
From Coq Require Import ZArith Bool List Lia Reals Lra.
From Flocq Require Import Core.Core IEEE754.BinarySingleNaN.
From Verif Require Export Demo Props_Vec.
Import ListNotations.
Open Scope R_scope.

Definition whole (acosf : float32 -> float32) (x y : Z) : Vec2 (A := ieee acosf) := @mkVec2 (ieee acosf) (b32 x 0) (b32 y 0).
Transparent b32.
Lemma whole_fin : forall z, (Z.abs z < 2 ^ 24)%Z -> is_finite (b32 z 0) = true /\ B2R (b32 z 0) = IZR z.
Proof. intros z H. exact (ofZ_32 z H). Qed.

(** C53: (3, 4) and (4, 3), both of length 5: the cosine is 24/25.  The C library's
    range is met by an arc cosine that is constantly 1. *)
Example C53_example : forall acosf, let u := whole acosf 3 4 in let v := whole acosf 4 3 in
  ordinary_vec acosf u /\ ordinary_vec acosf v /\
  (B2R (vx u : float32) * B2R (vx v : float32) + B2R (vy u : float32) * B2R (vy v : float32)) / (length32 acosf u * length32 acosf v) = 24 / 25.
Proof.
  intros acosf u v. destruct (whole_fin 3 eq_refl) as [F3 E3]. destruct (whole_fin 4 eq_refl) as [F4 E4].
  assert (LU : length32 acosf u = 5).
  { unfold length32, u, whole. cbn [vx vy]. rewrite E3, E4. replace (3 * 3 + 4 * 4) with (5 * 5) by lra. apply sqrt_square. lra. }
  assert (LV : length32 acosf v = 5).
  { unfold length32, v, whole. cbn [vx vy]. rewrite E3, E4. replace (4 * 4 + 3 * 3) with (5 * 5) by lra. apply sqrt_square. lra. }
  assert (B : bpow radix2 (-60) <= 5 <= bpow radix2 100).
  { split; [apply Rle_trans with (bpow radix2 2); [apply bpow_le; lia|simpl; lra]|apply Rle_trans with (bpow radix2 3); [simpl; lra|apply bpow_le; lia]]. }
  split; [split; [exact F3|split; [exact F4|rewrite LU; exact B]]|]. split; [split; [exact F4|split; [exact F3|rewrite LV; exact B]]|].
  rewrite LU, LV. unfold u, v, whole. cbn [vx vy]. rewrite E3, E4. lra.
Qed.
Example C53_range_example : let acosf := (fun _ : float32 => b32 1 0) in
  (forall x : float32, Bleb (b32 (-1) 0) x = true -> Bleb x (b32 1 0) = true -> Bleb (B754_zero false) (acosf x) = true /\ Bleb (acosf x) (b32 3 0) = true) /\
  Bleb (B754_zero false) (b32 3 0) = true /\
  (match absolute_angle_to (whole acosf 3 4) (whole acosf 4 3) with Some a => Beqb a (b32 1 0) | None => false end) = true.
Proof. split; [intros x _ _; split; vm_compute; reflexivity|]. split; vm_compute; reflexivity. Qed.

(** A vector at a right angle to itself: the magnitude of (1.5 * 2^127, 1.5 * 2^127) is infinite in
    binary32, so the unit vectors are zero. *)
Theorem C53_huge_vector_refuted : exists x : float32, is_finite x = true /\ 0 < B2R x /\
  forall acosf (A := ieee acosf), let v := @mkVec2 (ieee acosf) x x in absolute_angle_to v v = Some (acosf (B754_zero false)).
Proof.
  exists (b32 (3 * 2 ^ 22) 104). split; [vm_compute; reflexivity|]. split.
  - apply (ltb_R 24 128 (B754_zero false)); vm_compute; reflexivity.
  - intros acosf A v. subst A. set (x := b32 (3 * 2 ^ 22) 104) in *.
    assert (FX : is_finite x = true) by (vm_compute; reflexivity). unfold v. rewrite (angle_cases acosf); try exact FX.
    assert (M : magnitude (A := ieee acosf) (mkVec2 (x : @F (ieee acosf)) x) = B754_infinity false) by (apply B2SF_inj; vm_compute; reflexivity).
    rewrite M. cbn [Beqb vx vy orb]. match goal with |- (if ?b then _ else _) = _ => replace b with false by (vm_compute; reflexivity) end.
    f_equal.
Qed.
