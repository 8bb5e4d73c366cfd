(** * C06, C08, C09, C23: concrete strokes in IEEE arithmetic, and a counterexample
      about times. *)
From Coq Require Import ZArith Bool List Lia String Reals Lra Sorted.
From Flocq Require Import Core.Core IEEE754.BinarySingleNaN.
From Verif Require Export Examples_V Props_FTime.
Import ListNotations.
Open Scope Z_scope.

(** [after_stroke], by computation. *)
Lemma after_stroke_check : forall fuel hist f,
  no_call is_restore hist ->
  (match run fuel modeler0 hist with
   | Ret (_, rs) => f (prun pstate0 hist rs) (si_cur (srun sinputs0 hist rs))
   | _ => false end) = true ->
  exists s es, after_stroke fuel hist s es /\ f s es = true.
Proof.
  intros fuel hist f N H. destruct (run fuel modeler0 hist) as [[m rs]| |] eqn:R; try discriminate H.
  exists (prun pstate0 hist rs), (si_cur (srun sinputs0 hist rs)). split; [|exact H].
  exists m, rs. repeat (split; [assumption || reflexivity|]). apply clean_no_restore. exact N.
Qed.

(** C09: NaN and infinite coordinates, an infinite time, an unknown event type. *)
Definition bad_inputs : list Input :=
  [mkInput EMove (mkVec2 B754_nan (fl 0 1)) (db 10 1000) (fl 1 2) (fl 1 2) (fl 1 1);
   mkInput EMove (mkVec2 (fl 0 1) (B754_infinity true)) (db 10 1000) (fl 1 2) (fl 1 2) (fl 1 1);
   mkInput EMove (mkVec2 (fl 0 1) (fl 0 1)) (B754_infinity false) (fl 1 2) (fl 1 2) (fl 1 1);
   mkInput (EOther 7) (mkVec2 (fl 0 1) (fl 0 1)) (db 10 1000) (fl 1 2) (fl 1 2) (fl 1 1)].
Example C09_example :
  (exists s, after 5 [CReset P_end; CUpdate down []] s /\ configured s = true) /\
  Forall (malformed (fun x => x)) bad_inputs /\
  forallb (fun i => replies_ok (codes [2]) (answers 5 [CReset P_end; CUpdate down []] [CUpdate i []])) bad_inputs = true.
Proof.
  split; [apply after_check_ex; compute_true|]. split; [|compute_true].
  constructor; [|constructor; [|constructor; [|constructor; [|constructor]]]].
  - right; left. reflexivity.
  - right; right; left. reflexivity.
  - right; right; right. reflexivity.
  - left. split; [discriminate|split; discriminate].
Qed.

(** C06, C08, C23: a stroke whose times are between one and two seconds. *)
Definition tdown := inp EDown 0 0 1000 50.
Definition tmove1 := inp EMove 10 0 1010 60.
Definition tmove2 := inp EMove 20 5 1020 70.
Definition tmove3 := inp EMove 20 20 1030 80.
Definition tup := inp EUp 20 30 1040 90.
Definition H_timed : list call := CReset P_end :: map (fun i => CUpdate i []) [tdown; tmove1; tmove2; tmove3].

Definition second (i : Input) : bool :=
  is_finite (i_time i : float64) && dleb (db 1 1) (i_time i) && dleb (i_time i) (db 2 1).
Fixpoint timely (is : list Input) : bool :=
  match is with
  | i :: ((j :: _) as is') => second i && second j && dleb (i_time i) (i_time j) && timely is'
  | _ => true
  end.
Lemma literal_R : forall (x : float64) z, B2SF x = B2SF (dofZ (Arith := demo_arith) z : float64) -> (Z.abs z < 2 ^ 53)%Z -> B2R x = IZR z.
Proof. intros x z E L. apply B2SF_inj in E. subst x. apply (ofZ_64 z). exact L. Qed.
Lemma one_two : B2R (db 1 1 : float64) = 1%R /\ B2R (db 2 1 : float64) = 2%R.
Proof. split; apply literal_R; vm_compute; reflexivity. Qed.
Lemma timely_gap : forall is, timely is = true -> Sorted (@exact_gap (fun x => x)) is.
Proof.
  induction is as [|i is IH]; intros H; [constructor|]. destruct is as [|j is]; [constructor; constructor|].
  cbn [timely] in H. apply andb_prop in H. destruct H as [H H1]. apply andb_prop in H. destruct H as [H H2].
  apply andb_prop in H. destruct H as [S1 S2]. constructor; [exact (IH H1)|]. constructor.
  unfold second in S1, S2. apply andb_prop in S1. destruct S1 as [S1 S3]. apply andb_prop in S1. destruct S1 as [S1 S4].
  apply andb_prop in S2. destruct S2 as [S2 S5]. apply andb_prop in S2. destruct S2 as [S2 S6].
  destruct one_two as [E1 E2].
  apply (leb_R 53 1024) in S4; [|reflexivity|exact S1]. apply (leb_R 53 1024) in S5; [|exact S2|reflexivity].
  apply (leb_R 53 1024) in H2; [|exact S1|exact S2]. rewrite E1 in S4. rewrite E2 in S5.
  apply exact_gap_double; [exact S1|exact S2|split; [|exact H2]|].
  - apply Rle_trans with 1%R; [lra|exact S4].
  - apply Rle_trans with 2%R; [exact S5|]. apply Rmult_le_compat_l with (r := 2%R) in S4; [|lra]. rewrite Rmult_1_r in S4. exact S4.
Qed.

Example C23_float_example : exists s es, after_stroke 5 H_timed s es /\
  Sorted (@exact_gap (fun x => x)) (map fst es ++ [tup]) /\ in_stroke s = true /\ List.length es = 4%nat /\
  lp_enabled (pp_loop (p_position P_end)) = false /\
  (5 <= List.length (List.concat (map snd es)))%nat /\
  replies_ok (fun rs => match rs with
    | [RResults OkStatus out] => negb (Nat.eqb (List.length out) 0) && forallb (fun r => is_finite (r_time r : float64)) out
    | _ => false end) (answers 5 H_timed [CUpdate tup []]) = true.
Proof.
  destruct (after_stroke_check 5 H_timed (fun s es => timely (map fst es ++ [tup]) && (in_stroke s && (Nat.eqb (List.length es) 4 &&
    Nat.leb 5 (List.length (List.concat (map snd es))))))) as (s & es & AS & H); [reflexivity|compute_true|].
  exists s, es. apply andb_prop in H. destruct H as [H1 H]. apply andb_prop in H. destruct H as [H2 H]. apply andb_prop in H. destruct H as [H3 H4].
  split; [exact AS|]. split; [apply timely_gap; exact H1|]. split; [exact H2|]. split; [apply Nat.eqb_eq; exact H3|]. split; [reflexivity|].
  split; [apply Nat.leb_le; exact H4|compute_true].
Qed.

(** C06: the Move of that stroke, 10 ms after the Down at 180 Hz. *)
Example C06_example : exists s, after 5 [CReset P_end; CUpdate tdown []] s /\ in_stroke s = true /\
  (bpow radix2 (-149) <= B2R (i_time tmove1 : float64) - B2R (i_time tdown : float64))%R /\
  (bpow radix2 (-900) <= B2R (sp_rate (p_sampling P_end) : float64))%R /\
  replies_ok (codes [0]) (answers 5 [CReset P_end; CUpdate tdown []] [CUpdate tmove1 []]) = true.
Proof.
  destruct (after_check_ex 5 [CReset P_end; CUpdate tdown []] in_stroke) as (s & AF & IS); [compute_true|].
  exists s. split; [exact AF|]. split; [exact IS|]. split; [|split; [|compute_true]].
  - assert (E1 : B2R (i_time tdown : float64) = 1%R) by (apply literal_R; vm_compute; reflexivity).
    assert (L : Bleb (b64 1034 (-10)) (i_time tmove1 : float64) = true) by (vm_compute; reflexivity).
    apply (leb_R 53 1024) in L; [|reflexivity|reflexivity].
    assert (EB : B2R (b64 1034 (-10)) = (1034 / 1024)%R).
    { vm_compute. lra. }
    rewrite E1. apply Rle_trans with (10 / 1024)%R.
    + assert (K := bpow_le radix2 (-149) (-7) ltac:(lia)). eapply Rle_trans; [exact K|]. cbn. lra.
    + rewrite EB in L. apply Rle_trans with (1034 / 1024 - 1)%R; [lra|]. apply Rplus_le_compat_r. exact L.
  - assert (E1 : B2R (sp_rate (p_sampling P_end) : float64) = 180%R) by (apply literal_R; vm_compute; reflexivity).
    rewrite E1. assert (K := bpow_le radix2 (-900) 0 ltac:(lia)). eapply Rle_trans; [exact K|]. cbn. lra.
Qed.

(** C23: without [exact_gap] the results of one update can be timed after those of
    the next one (and after the input they come from).  Both inputs are a second
    after the Down, to within 2^-52 s. *)
Definition P_many : StrokeModelParams :=
  mkParams demo_no_wobble demo_position (demo_sampling 1000) demo_stylus PredStrokeEnd.
Definition rdown : Input := mkInput EDown (mkVec2 (fl 0 1) (fl 0 1)) (db (-1) 1) (fl 1 2) (fl 1 2) (fl 1 1).
Definition rmove1 : Input := mkInput EMove (mkVec2 (fl 1 1) (fl 0 1)) (b64 3 (-54)) (fl 1 2) (fl 1 2) (fl 1 1).
Definition rmove2 : Input := mkInput EMove (mkVec2 (fl 1 1) (fl 1 1)) (b64 7 (-55)) (fl 1 2) (fl 1 2) (fl 1 1).
Definition backwards (rs : list reply) : bool :=
  match rs with
  | [RResults OkStatus _; RResults OkStatus o1; RResults OkStatus o2] =>
      existsb (fun r1 => dltb (i_time rmove1) (r_time r1) && existsb (fun r2 => dltb (r_time r2) (r_time r1)) o2) o1
  | _ => false
  end.
Theorem C23_rounding_refuted : exists p d m1 m2 out0 out1 out2 r1 r2,
  lp_enabled (pp_loop (p_position p)) = false /\
  dltb (i_time d) (i_time m1) = true /\ dltb (i_time m1) (i_time m2) = true /\
  answers 5 [CReset p] [CUpdate d []; CUpdate m1 []; CUpdate m2 []] =
    Ret [RResults OkStatus out0; RResults OkStatus out1; RResults OkStatus out2] /\
  In r1 out1 /\ In r2 out2 /\ dltb (r_time r2) (r_time r1) = true /\ dltb (i_time m1) (r_time r1) = true.
Proof.
  assert (K : replies_ok backwards (answers 5 [CReset P_many] [CUpdate rdown []; CUpdate rmove1 []; CUpdate rmove2 []]) = true) by compute_true.
  apply replies_ok_ex in K. destruct K as (rs & R & K).
  destruct rs as [|[|[| |] o0|] [|[|[| |] o1|] [|[|[| |] o2|] []]]]; try discriminate K. cbn [backwards] in K.
  apply existsb_exists in K. destruct K as (r1 & I1 & K). apply andb_prop in K. destruct K as [K1 K].
  apply existsb_exists in K. destruct K as (r2 & I2 & K).
  exists P_many, rdown, rmove1, rmove2, o0, o1, o2, r1, r2. split; [reflexivity|]. split; [compute_true|]. split; [compute_true|].
  split; [exact R|]. split; [exact I1|]. split; [exact I2|]. split; [exact K|exact K1].
Qed.
