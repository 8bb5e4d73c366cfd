(** * C38 and C24 in binary32/binary64: a concrete case. *)
From Coq Require Import ZArith Bool List Lia String Reals.
From Flocq Require Import Core.Core IEEE754.BinarySingleNaN.
From Verif Require Export Examples_D Props_FSpring Props_FEnd.
Import ListNotations.
Open Scope Z_scope.
#[local] Existing Instance demo_arith.

Definition motion_finite (r : Result) : bool :=
  is_finite (vx (r_pos r) : float32) && is_finite (vy (r_pos r) : float32) && is_finite (vx (r_vel r) : float32) && is_finite (vy (r_vel r) : float32) &&
  is_finite (vx (r_acc r) : float32) && is_finite (vy (r_acc r) : float32) && is_finite (r_time r : float64).
Lemma motion_finite_true : forall l, forallb motion_finite l = true -> Forall finite_motion l.
Proof.
  intros l H. apply Forall_forall. intros r R. pose proof (proj1 (forallb_forall _ _) H r R) as K. clear H R. unfold motion_finite in K.
  repeat (apply andb_prop in K; destruct K as [K ?]). repeat split; assumption.
Qed.
Definition plain_first (es : list entry) : bool :=
  match es with (d, _) :: _ => unknown (i_pressure d) && unknown (i_tilt d) && unknown (i_orient d) | [] => false end.
Lemma plain_first_true : forall es, plain_first es = true -> plain_down es.
Proof.
  intros [|[d out] es] H; [discriminate H|]. cbn [plain_first] in H. apply andb_prop in H. destruct H as [H H3]. apply andb_prop in H. destruct H as [H1 H2].
  exists d, out, es. auto.
Qed.

(** C38: two Moves with two results each. *)
Definition H_drawn : list call := CReset P_raw :: map (fun i => CUpdate i []) [plain EDown 0 0 0; plain EMove 1 7 10; plain EMove 3 5 20].
Example C38_float_example : exists d r i1 l1 i2 l2, List.length l1 = 2%nat /\ List.length l2 = 2%nat /\
  float_drawn (p_position P_raw) r (i_pos d) [(i_pos i1, l1); (i_pos i2, l2)].
Proof.
  destruct (after_stroke_check 5 H_drawn (fun s es => in_stroke s && plain_first es && forallb motion_finite (List.concat (map snd es)) &&
    match es with [_; (_, l1); (_, l2)] => Nat.eqb (List.length l1) 2 && Nat.eqb (List.length l2) 2 | _ => false end))
    as (s & es & AS & C); [reflexivity|compute_true|].
  apply andb_prop in C. destruct C as [C C4]. apply andb_prop in C. destruct C as [C C3]. apply andb_prop in C. destruct C as [C1 C2].
  assert (AF : after 5 H_drawn s) by (destruct AS as (ma & rsa & Ra & Pa & _); exists ma, rsa; auto).
  pose proof (after_params 5 P_raw _ s ltac:(compute_true) (eq_refl : no_call is_reset (tl H_drawn)) AF) as PP.
  destruct (C38_float_spring_law (fun x => x) 5 H_drawn s P_raw es AS PP C1 eq_refl eq_refl eq_refl (plain_first_true _ C2) (motion_finite_true _ C3))
    as (d & r & es' & -> & _ & _ & _ & _ & DR).
  destruct es' as [|[i1 l1] [|[i2 l2] []]]; try discriminate C4. apply andb_prop in C4. destruct C4 as [L1 L2]. apply Nat.eqb_eq in L1, L2.
  exists d, r, i1, l1, i2, l2. split; [exact L1|]. split; [exact L2|]. exact DR.
Qed.

Definition two60 : float32 := @B754_finite 24 128 false 8388608 37 eq_refl.
Definition low60 : float32 := @B754_finite 24 128 false 8388608 (-83) eq_refl.
Definition two40 : float32 := @B754_finite 24 128 false 8388608 17 eq_refl.
Lemma pow_value : forall e (H : SpecFloat.bounded 24 128 8388608 e = true), B2R (@B754_finite 24 128 false 8388608 e H) = bpow radix2 (23 + e).
Proof. intros e H. rewrite bpow_plus. reflexivity. Qed.
Definition point_moderate (u : Vec2) : bool :=
  is_finite (vx u : float32) && is_finite (vy u : float32) && Bleb (Babs (vx u : float32)) two60 && Bleb (Babs (vy u : float32)) two60.
Lemma coord_moderate : forall x : float32, is_finite x = true -> Bleb (Babs x) two60 = true -> (Rabs (B2R x) <= bpow radix2 60)%R.
Proof.
  intros x F H. apply (leb_R 24 128) in H; [|rewrite is_finite_Babs; exact F|reflexivity]. rewrite B2R_Babs in H. unfold two60 in H. rewrite pow_value in H. exact H.
Qed.
Lemma point_moderate_true : forall u, point_moderate u = true -> moderate_point u.
Proof.
  intros u H. unfold point_moderate in H. apply andb_prop in H. destruct H as [H H4]. apply andb_prop in H. destruct H as [H H3]. apply andb_prop in H. destruct H as [H1 H2].
  split; apply coord_moderate; assumption.
Qed.
Lemma points_moderate_true : forall l, forallb (fun r => point_moderate (r_pos r)) l = true -> Forall (fun r => moderate_point (r_pos r)) l.
Proof. intros l H. apply Forall_forall. intros r R. apply point_moderate_true. exact (proj1 (forallb_forall _ _) H r R). Qed.
Lemma stop_moderate : forall x : float32, is_finite x = true -> Bleb low60 x = true -> Bleb x two40 = true -> moderate_stop x.
Proof.
  intros x F L H. apply (leb_R 24 128) in L; [|reflexivity|exact F]. apply (leb_R 24 128) in H; [|exact F|reflexivity].
  unfold low60 in L. unfold two40 in H. rewrite pow_value in L, H. split; assumption.
Qed.

(** C24: the pen goes up after that: eight results, part of them on the way to the
    pen-up point and the rest approaching it. *)
Definition up_drawn : Input := plain EUp 4 6 30.
Example C24_float_example : exists i0 prev path tail h, (List.length path + List.length tail = 8)%nat /\
  let stop := real32 (sp_stop (p_sampling P_raw)) in
  float_drawn_along (p_position P_raw) prev (i_pos i0) (i_pos up_drawn) path /\
  float_approaches (p_position P_raw) (i_pos up_drawn) stop (1 / real64 (sp_rate (p_sampling P_raw)))%R (last path prev) tail /\
  (List.length tail + h <= Z.to_nat (sp_max_iter (p_sampling P_raw)))%nat.
Proof.
  destruct (after_stroke_check 5 H_drawn (fun s es => in_stroke s && plain_first es && forallb motion_finite (List.concat (map snd es)) &&
    match back (List.concat (map snd es)) with Some r => point_moderate (r_pos r) | None => false end && Nat.eqb (List.length es) 3))
    as (s & es & AS & C); [reflexivity|compute_true|].
  apply andb_prop in C. destruct C as [C C5]. apply andb_prop in C. destruct C as [C C4]. apply andb_prop in C. destruct C as [C C3]. apply andb_prop in C. destruct C as [C1 C2].
  destruct (some_results (answers 5 H_drawn [CUpdate up_drawn []]) (fun l => forallb motion_finite l && forallb (fun r => point_moderate (r_pos r)) l && Nat.eqb (List.length l) 8))
    as (out & AN & CO); [compute_true|].
  apply andb_prop in CO. destruct CO as [CO O3]. apply andb_prop in CO. destruct CO as [O1 O2]. apply Nat.eqb_eq in O3.
  assert (AF : after 5 H_drawn s) by (destruct AS as (ma & rsa & Ra & Pa & _); exists ma, rsa; auto).
  pose proof (after_params 5 P_raw _ s ltac:(compute_true) (eq_refl : no_call is_reset (tl H_drawn)) AF) as PP.
  assert (BI : exists i0, back (map fst es) = Some i0) by (clear - C5; destruct es as [|e1 [|e2 [|e3 []]]]; try discriminate C5; eexists; reflexivity).
  destruct BI as [i0 BI]. assert (BP : exists prev, back (List.concat (map snd es)) = Some prev /\ point_moderate (r_pos prev) = true).
  { clear - C4. revert C4. generalize (back (List.concat (map snd es))). intros [r|] C; [exists r; auto|discriminate C]. }
  destruct BP as (prev & BK & MP).
  assert (MS : moderate_stop (sp_stop (p_sampling P_raw) : float32)) by (apply stop_moderate; [compute_true|compute_true|compute_true]).
  assert (MA : Forall (fun r => moderate_point (r_pos r)) (prev :: out)) by (apply points_moderate_true; cbn [forallb]; rewrite MP, O2; reflexivity).
  destruct (C24_float_end_of_stroke (fun x => x) 5 H_drawn s P_raw i0 up_drawn [] out es prev AS PP BI eq_refl eq_refl eq_refl (plain_first_true _ C2) BK AN
    (motion_finite_true _ C3) (motion_finite_true _ O1) (point_moderate_true (i_pos up_drawn) ltac:(compute_true)) MA MS)
    as (w & path & tail & h & W & O & DA & AP & LE & _).
  specialize (W eq_refl). subst w. exists i0, prev, path, tail, h. split; [|split; [exact DA|split; [exact AP|exact LE]]].
  destruct O as [O|(_ & _ & f & O & _)]; rewrite O in O3; [rewrite <- app_length; exact O3|discriminate O3].
Qed.
