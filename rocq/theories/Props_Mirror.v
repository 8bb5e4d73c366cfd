(** * C54: in binary32/binary64 the symmetries of the square are exact. *)
From Coq Require Import ZArith Bool List Lia.
From Flocq Require Import IEEE754.BinarySingleNaN.
From Verif Require Import Ieee FloatFacts Spec Props_Params Mirror.
From Verif Require Export Mirrored.
Import ListNotations.

(** ** What the theorems say *)
(** Two numbers that are the same float, or are both zero (0.0f and -0.0f). *)
Definition num_alike (x y : float32) : Prop := x = y \/ exists s t, x = B754_zero s /\ y = B754_zero t.

Section Statement.
Variable acosf : float32 -> float32.
Notation A := (ieee acosf).
Definition vec_alike (a b : Vec2 (A := A)) : Prop := num_alike (vx a) (vx b) /\ num_alike (vy a) (vy b).
(** Equal up to the signs of zeros; the time is exactly equal. *)
Record result_alike (r q : Result (A := A)) : Prop := mkAlike {
  al_pos : vec_alike (r_pos r) (r_pos q); al_vel : vec_alike (r_vel r) (r_vel q); al_acc : vec_alike (r_acc r) (r_acc q);
  al_time : r_time r = r_time q;
  al_pressure : num_alike (r_pressure r) (r_pressure q); al_tilt : num_alike (r_tilt r) (r_tilt q); al_orient : num_alike (r_orient r) (r_orient q) }.

(** The symmetry [g] applied to a vector, to a result, to a call, to a reply. *)
Definition negated (b : bool) (x : F (Arith := A)) : F (Arith := A) := if b then fneg x else x.
Definition flip_vec (g : flip) (v : Vec2 (A := A)) : Vec2 (A := A) :=
  if fl_swap g then mkVec2 (negated (fl_ny g) (vy v)) (negated (fl_nx g) (vx v))
  else mkVec2 (negated (fl_nx g) (vx v)) (negated (fl_ny g) (vy v)).
Definition flip_result (g : flip) (r : Result (A := A)) : Result (A := A) :=
  mkResult (flip_vec g (r_pos r)) (flip_vec g (r_vel r)) (flip_vec g (r_acc r)) (r_time r) (r_pressure r) (r_tilt r) (r_orient r).
Definition flip_input (g : flip) (i : Input (A := A)) : Input (A := A) :=
  mkInput (i_event i) (flip_vec g (i_pos i)) (i_time i) (i_pressure i) (i_tilt i) (i_orient i).
Definition flip_call (g : flip) (c : call (A := A)) : call (A := A) :=
  match c with
  | CUpdate i rs => CUpdate (flip_input g i) (map (flip_result g) rs)
  | CPredict rs => CPredict (map (flip_result g) rs)
  | _ => c
  end.
Definition flip_reply (g : flip) (r : reply (A := A)) : reply (A := A) :=
  match r with RResults s rs => RResults s (map (flip_result g) rs) | _ => r end.
(** Replies alike: the same status, and results alike.  When the axes are
    exchanged, the message of a rejected position may name the other coordinate. *)
Definition reply_alike (g : flip) (r q : reply (A := A)) : Prop :=
  match r, q with
  | RResults s rs, RResults t qs =>
      (s = t \/ fl_swap g = true /\ exists u v, s = InvalidArgument u /\ t = InvalidArgument v) /\ Forall2 result_alike rs qs
  | _, _ => r = q
  end.
(** Projection along the normal distinguishes left from right: excluded for reflections. *)
Definition flippable (g : flip) (c : call (A := A)) : Prop :=
  match c with CReset p => turn g = true \/ sy_normal (p_stylus p) = false | _ => True end.
(** Calls that differ only in the signs of zeros of the positions (and of what was in the results). *)
Definition call_alike (c d : call (A := A)) : Prop :=
  match c, d with
  | CUpdate i rs, CUpdate j qs => vec_alike (i_pos i) (i_pos j) /\
      j = mkInput (i_event i) (i_pos j) (i_time i) (i_pressure i) (i_tilt i) (i_orient i) /\ Forall2 result_alike rs qs
  | CPredict _, CPredict _ => True
  | _, _ => c = d
  end.
End Statement.

(** ** The laws for binary32 and binary64 *)
Notation sg32 := (signed 24 128).
Notation sd64 := (signed 53 1024).
Lemma f0_z : forall acosf, (f0 (A := ieee acosf) : float32) = B754_zero false.
Proof. intros. apply B2SF_inj. vm_compute. reflexivity. Qed.
Lemma d0_z : forall acosf, (d0 (A := ieee acosf) : float64) = B754_zero false.
Proof. intros. apply B2SF_inj. vm_compute. reflexivity. Qed.
Lemma ieee_laws : forall acosf, acosf (B754_zero true) = acosf (B754_zero false) -> sign_laws (A := ieee acosf) sg32 sd64.
Proof.
  intros acosf AZ. constructor; cbn [fadd fsub fmul fdiv fneg fabs feqb fltb fisnan fisinf fhypot facos dadd dsub dmul dltb f2d d2f ieee F D].
  - apply signed_refl.
  - intros b. rewrite f0_z. apply signed_zero.
  - apply signed_plus.
  - apply signed_minus.
  - apply signed_minus_swap.
  - apply signed_mult.
  - apply signed_div.
  - apply signed_neg.
  - apply signed_neg'.
  - apply plus_comm.
  - apply signed_square.
  - apply signed_hypot.
  - apply hypot_comm.
  - intros x y x' y' H K. apply same_ltb; apply signed_same; assumption.
  - apply signed_eqb.
  - apply signed_nan.
  - apply signed_isinf.
  - intros x x' H. apply same_abs. apply signed_same. exact H.
  - intros x x' H. apply signed_same in H. destruct H as [->|(s & t & -> & ->)]; [reflexivity|]. destruct s, t; congruence.
  - intros x x' H E. rewrite f0_z in E. apply signed_same in H. eapply same_nz; eassumption.
  - apply signed_refl.
  - intros b. rewrite d0_z. apply signed_zero.
  - apply signed_plus.
  - apply signed_minus.
  - apply signed_mult.
  - intros x y x' y' H K. apply same_ltb; apply signed_same; assumption.
  - apply signed_to64.
  - apply signed_to32.
Qed.

Lemma alike_signed : forall x y, num_alike x y <-> sg32 false x y.
Proof. intros. symmetry. exact (signed_same 24 128 x y). Qed.
Lemma negated_signed : forall acosf b x y, sg32 b x y -> num_alike (negated acosf b x) y.
Proof. intros acosf b x y H. apply (signed_cases 24 128) in H. destruct b; exact H. Qed.
Lemma signed_negated : forall acosf b x, sg32 b x (negated acosf b x).
Proof. intros acosf b x. destruct b; [exact (signed_opp 24 128 x)|exact (signed_refl 24 128 x)]. Qed.

Section Proof.
Variable acosf : float32 -> float32.
Notation A := (ieee acosf).
Notation VRg := (VR (A := A) sg32).
Notation RRg := (RR (A := A) sg32).
Lemma flip_VR : forall g v, VRg g v (flip_vec acosf g v).
Proof. intros g v. unfold VR, flip_vec. destruct (fl_swap g); cbn [vx vy]; split; apply signed_negated. Qed.
Lemma VR_flip : forall g v w, VRg g v w -> vec_alike acosf (flip_vec acosf g v) w.
Proof. intros g v w. unfold VR, flip_vec, vec_alike. destruct (fl_swap g); cbn [vx vy]; intros [H K]; split; apply negated_signed; assumption. Qed.
Lemma flip_RR : forall g r, RRg g r (flip_result acosf g r).
Proof.
  intros g r. split; [|reflexivity]. constructor; cbn [flip_result r_pos r_vel r_acc r_pressure r_tilt r_orient]; try apply flip_VR; apply signed_refl.
Qed.
Lemma RR_flip : forall g r q, RRg g r q -> result_alike acosf (flip_result acosf g r) q.
Proof.
  intros g r q [[R1 R2 R3 R4 R5 R6] T]. constructor; cbn [flip_result r_pos r_vel r_acc r_time r_pressure r_tilt r_orient];
    try (apply VR_flip; assumption); try exact T; apply alike_signed; assumption.
Qed.
Lemma RRs_flip : forall g rs qs, Forall2 (RRg g) rs qs -> Forall2 (result_alike acosf) (map (flip_result acosf g) rs) qs.
Proof. intros g rs qs H. induction H; cbn [map]; constructor; auto. apply RR_flip. assumption. Qed.
Lemma flip_RRs : forall g rs, Forall2 (RRg g) rs (map (flip_result acosf g) rs).
Proof. intros g rs. induction rs; cbn [map]; constructor; auto. apply flip_RR. Qed.
Lemma flip_IR : forall g i, IR (A := A) sg32 g i (flip_input acosf g i).
Proof. intros g i. constructor; cbn [flip_input i_event i_pos i_time i_pressure i_tilt i_orient]; try reflexivity. apply flip_VR. Qed.
Lemma flip_CR : forall g c, flippable acosf g c -> CR (A := A) sg32 g c (flip_call acosf g c).
Proof.
  intros g c H. destruct c; cbn [flip_call]; try constructor.
  - unfold flat. cbn [flippable] in H. intros E. destruct H as [H|H]; [exact H|congruence].
  - apply flip_IR.
  - apply flip_RRs.
Qed.
Lemma flip_CRs : forall g cs, Forall (flippable acosf g) cs -> Forall2 (CR (A := A) sg32 g) cs (map (flip_call acosf g) cs).
Proof. intros g cs H. induction H; cbn [map]; constructor; auto. apply flip_CR. assumption. Qed.
Lemma YR_flip : forall g r q, YR (A := A) sg32 g r q -> reply_alike acosf g (flip_reply acosf g r) q.
Proof.
  intros g r q H. destruct H; cbn [flip_reply reply_alike]; try reflexivity. split; [assumption|]. apply RRs_flip. assumption.
Qed.
Definition id_flip : flip := mkFlip false false false.
Lemma alike_VR : forall v w, vec_alike acosf v w <-> VRg id_flip v w.
Proof.
  intros v w. unfold vec_alike, VR. cbn [fl_swap fl_nx fl_ny id_flip]. rewrite !alike_signed. reflexivity.
Qed.
Lemma alike_RR : forall r q, result_alike acosf r q <-> RRg id_flip r q.
Proof.
  intros r q. split.
  - intros [R1 R2 R3 R4 R5 R6 R7]. split; [|exact R4]. constructor; try (apply alike_VR; assumption); apply alike_signed; assumption.
  - intros [[R1 R2 R3 R5 R6 R7] R4]. constructor; try (apply alike_VR; assumption); try exact R4; apply alike_signed; assumption.
Qed.
Lemma alike_RRs : forall rs qs, Forall2 (result_alike acosf) rs qs <-> Forall2 (RRg id_flip) rs qs.
Proof. intros rs qs. split; intros H; induction H; constructor; auto; apply alike_RR; assumption. Qed.
Lemma alike_CR : forall c d, call_alike acosf c d -> CR (A := A) sg32 id_flip c d.
Proof.
  intros c d H. destruct c; destruct d; cbn [call_alike] in H; try (discriminate H); try constructor.
  - assert (E : p = p0) by congruence. subst p0. constructor. intros _. reflexivity.
  - destruct H as (H & -> & _). constructor; cbn [i_event i_pos i_time i_pressure i_tilt i_orient]; try reflexivity. apply alike_VR. exact H.
  - apply alike_RRs. apply H.
Qed.
Lemma YR_alike : forall r q, YR (A := A) sg32 id_flip r q -> reply_alike acosf id_flip r q.
Proof.
  intros r q H. destruct H; cbn [reply_alike]; try reflexivity. split; [assumption|]. apply alike_RRs. assumption.
Qed.
End Proof.

(** A drawing, turned by a multiple of 90 degrees or reflected in an axis or a
    diagonal, is modeled to the turned or reflected stroke: every number returned is
    the same float, up to the sign of zeros, and every time and every status is the
    same. *)
Theorem C54_square_symmetry : forall acosf (A := ieee acosf) fuel g hist cs,
  acosf (B754_zero true) = acosf (B754_zero false) ->
  Forall (flippable acosf g) (hist ++ cs) ->
  orel (fun rs qs => Forall2 (reply_alike acosf g) (map (flip_reply acosf g) rs) qs)
    (answers (A := ieee acosf) fuel hist cs) (answers (A := ieee acosf) fuel (map (flip_call acosf g) hist) (map (flip_call acosf g) cs)).
Proof.
  intros acosf A fuel g hist cs AZ H. subst A. apply Forall_app in H. destruct H as [H1 H2].
  eapply orel_weaken; [apply (c_answers (A := ieee acosf) sg32 sd64 (ieee_laws acosf AZ) g); apply flip_CRs; assumption|].
  cbv beta. intros rs qs K. induction K; cbn [map]; constructor; auto. apply YR_flip. assumption.
Qed.

(** The signs of zeros of the positions given do not matter, except for the signs of zeros. *)
Theorem C54_signs_of_zero : forall acosf (A := ieee acosf) fuel hist hist' cs cs',
  acosf (B754_zero true) = acosf (B754_zero false) ->
  Forall2 (call_alike acosf) hist hist' -> Forall2 (call_alike acosf) cs cs' ->
  orel (Forall2 (reply_alike acosf id_flip)) (answers (A := ieee acosf) fuel hist cs) (answers (A := ieee acosf) fuel hist' cs').
Proof.
  intros acosf A fuel hist hist' cs cs' AZ H1 H2. subst A.
  assert (M : forall l l', Forall2 (call_alike acosf) l l' -> Forall2 (CR (A := ieee acosf) sg32 id_flip) l l').
  { intros l l' H. induction H; constructor; auto. apply alike_CR. assumption. }
  eapply orel_weaken; [apply (c_answers (A := ieee acosf) sg32 sd64 (ieee_laws acosf AZ) id_flip); apply M; assumption|].
  cbv beta. intros rs qs K. induction K; constructor; auto. apply YR_alike. assumption.
Qed.
