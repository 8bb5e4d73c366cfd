(** * C25 in binary32/binary64: a concrete case, and what the angle limit and stylus data change. *)
From Coq Require Import ZArith Bool List Lia String.
From Flocq Require Import Core.Core IEEE754.BinarySingleNaN.
From Verif Require Export Examples_T Examples_Q Props_FLift.
Import ListNotations.
Open Scope Z_scope.

Section Any.
Context {A : Arith}.
Definition unknown_all (is : list Input) : bool :=
  existsb (fun i => unknown (i_pressure i)) is && existsb (fun i => unknown (i_tilt i)) is && existsb (fun i => unknown (i_orient i)) is.
Lemma unknown_all_true : forall is, unknown_all is = true -> all_unknown is.
Proof.
  intros is H. unfold unknown_all in H. apply andb_prop in H. destruct H as [H H3]. apply andb_prop in H. destruct H as [H1 H2].
  repeat split; apply Exists_exists; eapply existsb_exists; eassumption.
Qed.
Lemma some_results : forall (o : outcome (list reply)) f,
  match o with Ret [RResults OkStatus l] => f l | _ => false end = true -> exists l, o = Ret [RResults OkStatus l] /\ f l = true.
Proof. intros [[|[|[| |] l|] [|]]| |] f H; try discriminate H. exists l. auto. Qed.

End Any.

(** C25: the prediction has nine results, and they are those of the Up. *)
Definition plain (e : event_type) (x y t : Z) : Input := mkInput e (mkVec2 (fl x 100) (fl y 100)) (db t 1000) (fl (-1) 1) (fl (-1) 1) (fl (-1) 1).
Definition H_plain : list call := CReset P_raw :: map (fun i => CUpdate i []) [plain EDown 0 0 0; plain EMove 1 7 10].
Definition lifted (i0 : Input) : Input := mkInput EUp (i_pos i0) (i_time i0) (fl 1 2) (fl 1 2) (fl 1 1).
Example C25_float_example : exists i0 pred, List.length pred = 9%nat /\
  answers 5 H_plain [CPredict []] = Ret [RResults OkStatus pred] /\
  answers 5 H_plain [CUpdate (lifted i0) []] = Ret [RResults OkStatus pred].
Proof.
  destruct (after_stroke_check 5 H_plain (fun s es => unknown_all (map fst es) && match ps_last s with
    | Some i0 => match answers 5 H_plain [CUpdate (lifted i0) []] with Ret [RResults OkStatus l] => true | _ => false end | None => false end))
    as (s & es & AS & C); [reflexivity|compute_true|].
  apply andb_prop in C. destruct C as [C1 C2]. destruct (ps_last s) as [i0|] eqn:L; [|discriminate C2].
  destruct (some_results (answers 5 H_plain [CPredict []]) (fun l => Nat.eqb (List.length l) 9)) as (pred & AP & LP); [compute_true|].
  destruct (some_results (answers 5 H_plain [CUpdate (lifted i0) []]) (fun _ => true) C2) as (out & AN & _). apply Nat.eqb_eq in LP.
  assert (AF : after 5 H_plain s) by (destruct AS as (ma & rsa & Ra & Pa & _); exists ma, rsa; auto).
  pose proof (after_params 5 P_raw _ s ltac:(compute_true) (eq_refl : no_call is_reset (tl H_plain)) AF) as PP.
  destruct (C25_float_prediction_is_lifting_the_pen (fun x => x) 5 H_plain s P_raw i0 (lifted i0) [] [] out pred es AS PP L
    eq_refl eq_refl eq_refl eq_refl (unknown_all_true _ C1) eq_refl eq_refl eq_refl AP AN) as [E _].
  exists i0, pred. split; [exact LP|]. split; [exact AP|]. rewrite <- E; [exact AN|]. intros ->. discriminate LP.
Qed.

(** Kalman prediction with the recommended minimum of four inputs, when all of them carry the same time. *)
Definition H_burst : list call := CReset P_kal :: map (fun i => CUpdate i []) [inp EDown 0 0 0 50; inp EMove 10 0 0 50; inp EMove 20 5 0 50; inp EMove 20 20 0 50].
Theorem C49_predict_same_time_refuted : exists p is out, documented (fun x => x) p /\ Forall (fun i => finite_input i = true /\ i_time i = d0) is /\
  answers 5 (CReset p :: map (fun i => CUpdate i []) is) [CPredict []] = Ret [RResults OkStatus out] /\
  Exists (fun r => fisnan (vx (r_pos r)) = true /\ fisnan (vx (r_vel r)) = true) out.
Proof.
  assert (K : replies_ok (fun rs => match rs with [RResults OkStatus [r]] => fisnan (vx (r_pos r)) && fisnan (vx (r_vel r)) | _ => false end)
    (answers 5 H_burst [CPredict []]) = true) by compute_true.
  apply replies_ok_ex in K. destruct K as (rs & R & K). destruct rs as [|[| [| |] [|r []] |] []]; try discriminate K.
  apply andb_prop in K. exists P_kal, [inp EDown 0 0 0 50; inp EMove 10 0 0 50; inp EMove 20 5 0 50; inp EMove 20 20 0 50], [r].
  split; [|split; [repeat (constructor; [split; [compute_true|apply B2SF_inj; vm_compute; reflexivity]|]); constructor|split; [exact R|left; exact K]]].
  apply (C02_accepted_iff_documented (fun x => x) 5 [] pstate0 _ after_nil); [|apply accepted_reset; compute_true].
  split; [discriminate|]. intros k E. apply kalman_inj in E. subst k. compute_true.
Qed.

(** The leading term sqrt (2 (1 - x)) of the arc cosine near 1, in binary32. *)
Definition bend (x : float32) : float32 := Bsqrt mode_NE (Bmult mode_NE (fl 2 1) (Bminus mode_NE (fl 1 1) x)).
#[local] Instance bend_arith : Arith := ieee bend.
(** Smoothing and mitigation off, the given angle limit and number of stylus samples. *)
Definition D_params (angle : D) (samples : Z) : StrokeModelParams :=
  mkParams (mkWobbleParams false (dlit 4 100) (flit 131 100) (flit 144 100))
    (mkPositionParams (flit 11 32400) (flit 72 1) default_loop)
    (mkSamplingParams (dlit 180 1) (flit 1 1000) 20 100 angle)
    (mkStylusParams samples false (-1) (dlit (-1) 1)) PredStrokeEnd.
Definition D_inp (e : event_type) (x y t : Z) : Input :=
  mkInput e (mkVec2 (flit x 100) (flit y 100)) (dlit t 1000) (flit (-1) 1) (flit (-1) 1) (flit (-1) 1).
Definition D_pen (e : event_type) (x y t pr : Z) : Input :=
  mkInput e (mkVec2 (flit x 100) (flit y 100)) (dlit t 1000) (flit pr 100) (flit 1 2) (flit 3 1).
Definition D_hist (angle : D) : list call :=
  CReset (D_params angle 10) :: map (fun i => CUpdate i []) [D_inp EDown 0 0 0; D_inp EMove 1 7 10].

(** The angle limit: rounding makes a velocity turn by a small angle from itself,
    so that the same Up gives a result more than the prediction. *)
Theorem C25_angle_limit_refuted : exists (p : @StrokeModelParams bend_arith) is i pred out,
  bend (fl 1 1) = B754_zero false /\
  answers 5 (CReset p :: map (fun j => CUpdate j []) is) [CPredict []] = Ret [RResults OkStatus pred] /\
  i_event i = EUp /\ (exists j, back is = Some j /\ i_pos i = i_pos j /\ i_time i = i_time j) /\
  answers 5 (CReset p :: map (fun j => CUpdate j []) is) [CUpdate i []] = Ret [RResults OkStatus out] /\
  List.length pred = 9%nat /\ List.length out = 10%nat.
Proof.
  destruct (some_results (answers 5 (D_hist (dlit 1 1)) [CPredict []]) (fun l => Nat.eqb (List.length l) 9)) as (pred & AP & LP); [compute_true|].
  destruct (some_results (answers 5 (D_hist (dlit 1 1)) [CUpdate (D_inp EUp 1 7 10) []]) (fun l => Nat.eqb (List.length l) 10)) as (out & AN & LO); [compute_true|].
  apply Nat.eqb_eq in LP, LO.
  exists (D_params (dlit 1 1) 10), [D_inp EDown 0 0 0; D_inp EMove 1 7 10], (D_inp EUp 1 7 10), pred, out.
  split; [apply B2SF_inj; vm_compute; reflexivity|]. split; [exact AP|]. split; [reflexivity|].
  split; [exists (D_inp EMove 1 7 10); repeat split|]. split; [exact AN|]. split; [exact LP|exact LO].
Qed.

(** C33: in binary32 the number of stylus samples kept can change the last bit of a position. *)
Definition D_stroke (samples : Z) : list call :=
  CReset (D_params (dlit (-1) 1) samples) :: map (fun i => CUpdate i []) [D_pen EDown 0 0 0 5; D_pen EMove 2 7 10 5; D_pen EMove 20 9 20 6].
Definition other_position (a b : list Result) : bool :=
  match a, b with r1 :: _, r2 :: _ => negb (veqb (r_pos r1) (r_pos r2)) | _, _ => false end.
Theorem C33_float_projection_refuted : exists r1 out1 r2 out2,
  answers 5 (D_stroke 1) [CUpdate (D_pen EMove 30 11 30 7) []] = Ret [RResults OkStatus (r1 :: out1)] /\
  answers 5 (D_stroke 10) [CUpdate (D_pen EMove 30 11 30 7) []] = Ret [RResults OkStatus (r2 :: out2)] /\
  r_pos r1 <> r_pos r2.
Proof.
  assert (K : forall o1 o2 : outcome (list reply), match o1, o2 with Ret [RResults OkStatus (r1 :: _)], Ret [RResults OkStatus (r2 :: _)] => negb (veqb (r_pos r1) (r_pos r2)) && veqb (r_pos r2) (r_pos r2) | _, _ => false end = true ->
    exists r1 out1 r2 out2, o1 = Ret [RResults OkStatus (r1 :: out1)] /\ o2 = Ret [RResults OkStatus (r2 :: out2)] /\ r_pos r1 <> r_pos r2).
  { intros [[|[|[| |] [|r1 l1]|] [|]]| |] [[|[|[| |] [|r2 l2]|] [|]]| |] H; try discriminate H. apply andb_prop in H. destruct H as [H1 H2].
    exists r1, l1, r2, l2. split; [reflexivity|]. split; [reflexivity|]. intros E. rewrite E, H2 in H1. discriminate H1. }
  apply K. compute_true.
Qed.
