(** * C31 in binary32/binary64: a concrete case. *)
From Coq Require Import ZArith Bool List Lia String Reals Lra.
From Flocq Require Import Core.Core IEEE754.BinarySingleNaN.
From Verif Require Export Examples_G Props_FProj.
From Verif Require Import Examples_N Flt FltAngle.
Import ListNotations.
Open Scope Z_scope.
#[local] Existing Instance demo_arith.

Definition one32 : float32 := @B754_finite 24 128 false 8388608 (-23) eq_refl.
Definition low49 : float32 := @B754_finite 24 128 false 8388608 (-72) eq_refl.
Definition six32 : float32 := @B754_finite 24 128 false 12582912 (-21) eq_refl.

Definition point_within (u : Vec2) : bool :=
  is_finite (vx u : float32) && is_finite (vy u : float32) && Bleb (Babs (vx u : float32)) one32 && Bleb (Babs (vy u : float32)) one32.
Lemma coord_within : forall x : float32, is_finite x = true -> Bleb (Babs x) one32 = true -> (Rabs (real32 x) <= 1)%R.
Proof.
  intros x F H. apply (leb_R 24 128) in H; [|rewrite is_finite_Babs; exact F|reflexivity]. rewrite B2R_Babs in H. unfold one32 in H. rewrite pow_value in H. exact H.
Qed.
Lemma point_within_true : forall u, point_within u = true -> Props_FProj.within 1 u.
Proof.
  intros u H. unfold point_within in H. apply andb_prop in H. destruct H as [H H4]. apply andb_prop in H. destruct H as [H H3]. apply andb_prop in H. destruct H as [H1 H2].
  split; [exact H1|]. split; [exact H2|]. split; apply coord_within; assumption.
Qed.
Definition points_spread (a b : Vec2) : bool :=
  is_finite (Bminus mode_NE (vx b : float32) (vx a)) && Bleb low49 (Babs (Bminus mode_NE (vx b : float32) (vx a))) ||
  is_finite (Bminus mode_NE (vy b : float32) (vy a)) && Bleb low49 (Babs (Bminus mode_NE (vy b : float32) (vy a))).
Lemma coords_spread : forall x y : float32, is_finite (Bminus mode_NE y x) = true -> Bleb low49 (Babs (Bminus mode_NE y x)) = true ->
  (bpow radix2 (-50) <= Rabs (B2R x - B2R y))%R.
Proof.
  intros x y F H. destruct (minus_inv y x F) as (_ & _ & V). apply (leb_R 24 128) in H; [|reflexivity|rewrite is_finite_Babs; exact F].
  rewrite B2R_Babs, V in H. unfold low49 in H. rewrite pow_value in H. rewrite Rabs_minus_sym.
  destruct (Rle_or_lt (bpow radix2 (-50)) (Rabs (B2R y - B2R x))) as [L|L]; [exact L|exfalso].
  assert (K : (Rabs (r32 (B2R y - B2R x)) <= bpow radix2 (-50))%R) by (apply (rnd_abs_le 24 128); [reflexivity|exact (fmt_bpow 24 128 (-50) eq_refl ltac:(lia))|lra]).
  assert (Q := bpow_lt radix2 (-50) (-49) ltac:(lia)). change (23 + -72) with (-49) in H. lra.
Qed.
Lemma squares_swap : forall a b c d : R, ((b - a) * (b - a) + (d - c) * (d - c) = (a - b) * (a - b) + (c - d) * (c - d))%R.
Proof. intros. ring. Qed.
Lemma points_spread_true : forall a b, points_spread a b = true -> spread a b.
Proof.
  intros a b H. right.
  assert (S : (Rabs (B2R (vx a : float32) - B2R (vx b : float32)) <= far a b /\ Rabs (B2R (vy a : float32) - B2R (vy b : float32)) <= far a b)%R).
  { unfold far. set (s := (_ + _)%R). assert (S0 : (0 <= s)%R).
    { unfold s, gap2. match goal with |- (0 <= ?a * ?a + ?b * ?b)%R => pose proof (Rle_0_sqr a); pose proof (Rle_0_sqr b) end. unfold Rsqr in *. lra. }
    apply abs_le_far; [apply sqrt_pos|]. rewrite sqrt_sqrt by exact S0. exact (squares_swap _ _ _ _). }
  unfold points_spread in H. apply orb_prop in H. destruct H as [H|H]; apply andb_prop in H; destruct H as [H1 H2]; apply (coords_spread _ _ H1) in H2;
    eapply Rle_trans; try exact H2; apply S.
Qed.
Definition points_spread_out (pts : list Input) : bool :=
  forallb (fun x => point_within (i_pos x)) pts && forallb (fun xy => points_spread (i_pos (fst xy)) (i_pos (snd xy))) (Props_Proj.segments pts).
Lemma points_spread_out_true : forall pts, points_spread_out pts = true -> spread_out 1 pts.
Proof.
  intros pts H. unfold points_spread_out in H. apply andb_prop in H. destruct H as [H1 H2]. split.
  - intros x I. apply point_within_true. exact (proj1 (forallb_forall _ _) H1 x I).
  - intros x y I. apply points_spread_true. exact (proj1 (forallb_forall _ _) H2 (x, y) I).
Qed.
(** Known pressure, tilt and orientation. *)
Definition known_stylus (i : Input) : bool :=
  let ok (v : float32) (m : float32) := is_finite v && Bleb (B754_zero false) v && Bleb v m in
  ok (i_pressure i) one32 && ok (i_tilt i) one32 && ok (i_orient i) six32.
Lemma value_within : forall v m : float32, is_finite m = true -> (is_finite v && Bleb (B754_zero false) v && Bleb v m)%bool = true ->
  is_finite v = true /\ (0 <= real32 v <= B2R m)%R.
Proof.
  intros v m FM H. apply andb_prop in H. destruct H as [H H3]. apply andb_prop in H. destruct H as [H1 H2].
  apply (leb_R 24 128) in H2; [|reflexivity|exact H1]. apply (leb_R 24 128) in H3; [|exact H1|exact FM]. auto.
Qed.
Lemma known_stylus_true : forall i, known_stylus i = true -> plain_value (i_pressure i) /\ plain_value (i_tilt i) /\ in_turn_closed (i_orient i).
Proof.
  intros i H. unfold known_stylus in H. cbv zeta in H. apply andb_prop in H. destruct H as [H H3]. apply andb_prop in H. destruct H as [H1 H2].
  apply value_within in H1; [|reflexivity]. apply value_within in H2; [|reflexivity]. apply value_within in H3; [|reflexivity].
  assert (E : B2R one32 = 1%R) by (unfold one32; rewrite pow_value; reflexivity). rewrite E in H1, H2.
  assert (L : (1 <= bpow radix2 60)%R) by exact (bpow_le radix2 0 60 ltac:(lia)).
  destruct H1 as (F1 & P1). destruct H2 as (F2 & P2). destruct H3 as (F3 & P3). split; [|split]; split; try assumption; try lra.
  assert (E6 : B2R six32 = 6%R) by (unfold six32, B2R, F2R; cbn; lra). unfold real32 in P3. rewrite E6 in P3.
  assert (U : (6 <= U2pi)%R) by (unfold U2pi; lra). lra.
Qed.

(** C31: three inputs, then a Move with two results, all close to the polyline. *)
Definition H_near : list call := CReset P_raw :: map (fun i => CUpdate i []) [inp EDown 0 0 0 50; inp EMove 10 0 10 60; inp EMove 20 5 20 70].
Definition next_near : Input := inp EMove 20 20 30 80.
Example C31_float_example : exists seen out, List.length seen = 3%nat /\ List.length out = 2%nat /\
  Forall (fun r => exists x y t, nearly_nearest 1 (seen ++ [next_near]) (r_pos r) x y t /\
    nearly_between (i_pressure x) (i_pressure y) t (r_pressure r) /\ nearly_between (i_tilt x) (i_tilt y) t (r_tilt r) /\
    nearly_turned (real32 (i_orient x)) (real32 (i_orient y)) t (real32 (r_orient r))) out.
Proof.
  destruct (after_seen_check 5 H_near (fun s es seen => Nat.eqb (List.length seen) 3 && points_spread_out (seen ++ [next_near]) && forallb known_stylus (seen ++ [next_near])))
    as (s & es & seen & AS & C); [reflexivity|compute_true|].
  apply andb_prop in C. destruct C as [C C3]. apply andb_prop in C. destruct C as [C1 C2]. apply Nat.eqb_eq in C1.
  destruct (some_results (answers 5 H_near [CUpdate next_near []]) (fun l => forallb (fun r => point_within (r_pos r)) l && Nat.eqb (List.length l) 2))
    as (out & AN & CO); [compute_true|].
  apply andb_prop in CO. destruct CO as [O1 O2]. apply Nat.eqb_eq in O2.
  assert (AF : after 5 H_near s) by (destruct AS as (ma & rsa & Ra & Pa & _); exists ma, rsa; auto).
  pose proof (after_params 5 P_raw _ s ltac:(compute_true) (eq_refl : no_call is_reset (tl H_near)) AF) as PP.
  assert (NB : (bpow radix2 (-40) <= 1 <= bpow radix2 58)%R) by (split; [exact (bpow_le radix2 (-40) 0 ltac:(lia))|exact (bpow_le radix2 0 58 ltac:(lia))]).
  assert (MR : Props_Proj.most_recent (sy_max_samples (p_stylus P_raw)) (seen ++ [next_near]) = seen ++ [next_near]).
  { change (sy_max_samples (p_stylus P_raw)) with 10. unfold Props_Proj.most_recent. rewrite app_length, C1. reflexivity. }
  pose proof (C31_float_closest_point_move (fun x => x) 5 H_near s P_raw es seen next_near [] out 1 AS PP eq_refl eq_refl eq_refl AN NB) as K.
  cbv zeta in K. specialize (K (eq_ind_r (fun l => spread_out 1 l) (points_spread_out_true _ C2) MR)).
  pose proof (eq_ind _ (fun l => Forall (float_reported (acosf := fun x => x) 1 (seen ++ [next_near]) l) out) K _ MR) as K'. clear K. rename K' into K.
  exists seen, out. split; [exact C1|]. split; [exact O2|].
  assert (KN : forall i, In i (seen ++ [next_near]) -> plain_value (i_pressure i) /\ plain_value (i_tilt i) /\ in_turn_closed (i_orient i)).
  { intros i I. apply known_stylus_true. exact (proj1 (forallb_forall _ _) C3 i I). }
  apply Forall_forall. intros r R. pose proof (proj1 (Forall_forall _ _) K r R) as KR.
  destruct (KR (point_within_true _ (proj1 (forallb_forall _ _) O1 r R))) as (x & y & t & NN & TP & TT & TO).
  exists x, y, t. split; [exact NN|]. split; [apply TP; intros i I; apply (KN i I)|]. split; [apply TT; intros i I; apply (KN i I)|].
  apply TO. intros i I. apply (KN i I).
Qed.
