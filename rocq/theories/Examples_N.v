(** * C37 in IEEE arithmetic: a concrete resting pen, and a counterexample. *)
From Coq Require Import ZArith Bool List Lia String Reals Lra Sorted.
From Flocq Require Import Core.Core IEEE754.BinarySingleNaN.
From Verif Require Export Examples_T Props_FRest Props_Offer.
Import ListNotations.
Open Scope Z_scope.

(** [after_seen], by computation. *)
Lemma after_seen_check : forall fuel hist f,
  no_call is_restore hist ->
  (match run fuel modeler0 hist with
   | Ret (_, rs) => f (prun pstate0 hist rs) (si_cur (srun sinputs0 hist rs)) (si_seen (srun sinputs0 hist rs))
   | _ => false end) = true ->
  exists s es seen, after_seen fuel hist s es seen /\ f s es seen = true.
Proof.
  intros fuel hist f N H. destruct (run fuel modeler0 hist) as [[m rs]| |] eqn:R; try discriminate H.
  exists (prun pstate0 hist rs), (si_cur (srun sinputs0 hist rs)), (si_seen (srun sinputs0 hist rs)). split; [|exact H].
  exists m, rs. repeat (split; [assumption || reflexivity|]). apply clean_no_restore. exact N.
Qed.

(** Mitigation and projection on, smoothing off. *)
Definition P_still : StrokeModelParams :=
  mkParams demo_no_wobble demo_position_loop (demo_sampling 100) demo_stylus_normal PredStrokeEnd.
Definition place : Vec2 := mkVec2 (fl 1 3) (fl (-7) 10).
Definition rest (e : event_type) (t : Z) : Input := mkInput e place (db t 1000) (fl 1 2) (fl 1 2) (fl 1 1).
Definition H_still : list call := CReset P_still :: map (fun i => CUpdate i []) [rest EDown 1000; rest EMove 1010; rest EMove 1025].

Fixpoint spaced (is : list Input) : bool :=
  match is with
  | i :: ((j :: _) as is') => second i && second j && dleb (b64 1 (-20)) (dsub (i_time j) (i_time i)) && spaced is'
  | _ => true
  end.
Lemma second_time : forall i, second i = true -> @ordinary_time (fun x => x) i.
Proof.
  intros i H. apply andb_prop in H. destruct H as [H H3]. apply andb_prop in H. destruct H as [H1 H2]. split; [exact H1|].
  destruct one_two as [E1 E2]. apply (leb_R 53 1024) in H2; [|reflexivity|exact H1]. apply (leb_R 53 1024) in H3; [|exact H1|reflexivity].
  rewrite E1 in H2. rewrite E2 in H3. apply Rle_trans with 2%R; [apply Rabs_le; split; [|exact H3]|].
  - apply Rle_trans with 1%R; [lra|exact H2].
  - change 2%R with (bpow radix2 1). apply bpow_le. lia.
Qed.
Lemma spaced_apart : forall is, spaced is = true -> Sorted (@apart (fun x => x)) is.
Proof.
  induction is as [|i is IH]; intros H; [constructor|]. destruct is as [|j is]; [constructor; constructor|].
  cbn [spaced] in H. apply andb_prop in H. destruct H as [H H1]. apply andb_prop in H. destruct H as [H H2].
  apply andb_prop in H. destruct H as [S1 S2]. constructor; [exact (IH H1)|]. constructor. right.
  apply second_time in S1, S2. destruct S1 as [F1 L1], S2 as [F2 L2].
  destruct (Rle_lt_dec (bpow radix2 (-149)) (Rabs (B2R (i_time j : float64) - B2R (i_time i : float64)))) as [L|L]; [exact L|exfalso].
  assert (FB : fmt 53 1024 (bpow radix2 (-149))) by (apply fmt_bpow; [reflexivity|lia]).
  assert (SM : small 53 1024 (B2R (i_time j : float64) - B2R (i_time i : float64))).
  { eapply small_fmt_bound; [reflexivity|exact FB|apply bpow_lt; lia|left; exact L]. }
  cbn [dleb dsub demo_arith ieee] in H2.
  destruct (minus_fin 53 1024 _ _ (i_time j : float64) (i_time i : float64) F2 F1 SM) as [M1 M2].
  apply (leb_R 53 1024) in H2; [|reflexivity|exact M1]. rewrite M2 in H2.
  assert (B : (Rabs (rnd 53 1024 (B2R (i_time j : float64) - B2R (i_time i : float64))) <= bpow radix2 (-149))%R) by (apply rnd_abs_le; [reflexivity|exact FB|left; exact L]).
  assert (E : B2R (b64 1 (-20)) = bpow radix2 (-20)) by (vm_compute; lra).
  rewrite E in H2. pose proof (Rle_abs (rnd 53 1024 (B2R (i_time j : float64) - B2R (i_time i : float64)))) as AB.
  pose proof (bpow_lt radix2 (-149) (-20) ltac:(lia)) as BL. lra.
Qed.
Definition resting_check (l : list Input) : bool :=
  forallb (fun i => veqb (i_pos i) place) l && forallb second l && spaced l.
Lemma resting_check_ok : forall l, resting_check l = true -> resting_inputs (acosf := fun x => x) place l.
Proof.
  intros l H. apply andb_prop in H. destruct H as [H H3]. apply andb_prop in H. destruct H as [H1 H2].
  rewrite forallb_forall in H1, H2. split; [|split].
  - apply Forall_forall. intros i I. exact (H1 i I).
  - apply Forall_forall. intros i I. apply second_time. exact (H2 i I).
  - apply spaced_apart. exact H3.
Qed.

(** The hypotheses are met and there are results to speak about. *)
Definition nonempty (rs : list reply) : bool := codes [0] rs && negb (counts [0] rs).
Example C37_float_example : exists s es seen, after_seen 5 H_still s es seen /\ in_stroke s = true /\ ps_params s = Some P_still /\
  ordinary_params (acosf := fun x => x) P_still /\ finite_point (acosf := fun x => x) place /\
  resting_inputs (acosf := fun x => x) place seen /\ resting_inputs (acosf := fun x => x) place (seen ++ [rest EMove 1040]) /\
  resting_inputs (acosf := fun x => x) place (seen ++ [rest EUp 1040]) /\
  (5 <= List.length (List.concat (map snd es)))%nat /\
  replies_ok nonempty (answers 5 H_still [CUpdate (rest EMove 1040) []]) = true /\
  replies_ok nonempty (answers 5 H_still [CUpdate (rest EUp 1040) []]) = true /\
  replies_ok (codes [0]) (answers 5 H_still [CPredict []]) = true.
Proof.
  destruct (after_seen_check 5 H_still (fun s es seen => in_stroke s && (resting_check seen && (resting_check (seen ++ [rest EMove 1040]) &&
    (resting_check (seen ++ [rest EUp 1040]) && Nat.leb 5 (List.length (List.concat (map snd es)))))))) as (s & es & seen & AS & H); [reflexivity|compute_true|].
  apply andb_prop in H. destruct H as [H1 H]. apply andb_prop in H. destruct H as [H2 H]. apply andb_prop in H. destruct H as [H3 H]. apply andb_prop in H. destruct H as [H4 H5].
  exists s, es, seen. split; [exact AS|]. split; [exact H1|]. split.
  { assert (AF : after 5 H_still s) by (destruct AS as (m & rs & R & P & _); exists m, rs; auto). revert AF. apply after_params; [compute_true|reflexivity]. }
  split.
  { split; [reflexivity|]. split.
    - assert (E1 : B2R (sp_rate (p_sampling P_still) : float64) = 180%R) by (apply literal_R; vm_compute; reflexivity).
      assert (K := bpow_le radix2 (-100) 0 ltac:(lia)). eapply Rle_trans; [exact K|]. apply Rle_trans with 180%R; [cbn; lra|]. apply Req_le. symmetry. exact E1.
    - intros l _. repeat split; compute_true. }
  split; [split; reflexivity|]. split; [apply resting_check_ok; exact H2|]. split; [apply resting_check_ok; exact H3|].
  split; [apply resting_check_ok; exact H4|]. split; [apply Nat.leb_le; exact H5|]. split; [compute_true|]. split; compute_true.
Qed.

(** Without [apart]: a Move 2^-200 s after the Down at the same place, with every
    optional feature off, and the velocity reported for the next Move is NaN. *)
Definition zero_in (e : event_type) (t : float64) : Input := mkInput e place t (fl 1 2) (fl 1 2) (fl 1 1).
Theorem C37_float_tiny_step_refuted : exists d i j out,
  i_event d = EDown /\ i_event i = EMove /\ i_event j = EMove /\ i_pos i = i_pos d /\ i_pos j = i_pos d /\
  wp_enabled (p_wobble P_raw) = false /\ lp_enabled (pp_loop (p_position P_raw)) = false /\ sy_normal (p_stylus P_raw) = false /\
  answers 5 [CReset P_raw; CUpdate d []; CUpdate i []] [CUpdate j []] = Ret [RResults OkStatus out] /\
  Exists (fun r => fisnan (vx (r_vel r)) = true) out.
Proof.
  destruct (nan_update (fun r => vx (r_vel r)) [CReset P_raw; CUpdate (zero_in EDown (b64 0 0)) []; CUpdate (zero_in EMove (b64 1 (-200))) []] (zero_in EMove (b64 1 (-6))) 5 ltac:(compute_true)) as (out & R & E).
  exists (zero_in EDown (b64 0 0)), (zero_in EMove (b64 1 (-200))), (zero_in EMove (b64 1 (-6))), out.
  repeat (split; [reflexivity|]). split; [exact R|exact E].
Qed.

(** ** C13, C14, C18: availability of prediction *)
Lemma offers_check : forall hist f,
  (match run 5 modeler0 hist with
   | Ret (_, rs) => f (prun pstate0 hist rs) (offer_run offer0 hist rs)
   | _ => false end) = true ->
  exists s o, after 5 hist s /\ offers 5 hist o /\ f s o = true.
Proof.
  intros hist f H. destruct (run 5 modeler0 hist) as [[m rs]| |] eqn:R; try discriminate H.
  exists (prun pstate0 hist rs), (offer_run offer0 hist rs). split; [exists m, rs; auto|]. split; [exists m, rs; auto|exact H].
Qed.
(** Available in a stroke with prediction enabled; available after H_stale although
    the parameters disable it; not available, but kept, without the last Restore. *)
Definition H_kept : list call := [CReset P_end; CUpdate down []; CSave; CReset P_off; CUpdate down2 []].
Definition offer_is (a b c : bool) (o : offer) : bool := Bool.eqb (of_now o) a && Bool.eqb (of_kept o) b && Bool.eqb (of_saved o) c.
Example C13_offer_example :
  (exists s o, after 5 H_stroke s /\ offers 5 H_stroke o /\ in_stroke s && Demo.predicting s && offer_is true false false o = true) /\
  (exists s o, after 5 H_stale s /\ offers 5 H_stale o /\ in_stroke s && negb (Demo.predicting s) && offer_is true true true o = true) /\
  (exists s o, after 5 H_kept s /\ offers 5 H_kept o /\ in_stroke s && configured s && negb (Demo.predicting s) && offer_is false true false o = true).
Proof. split; [|split]; apply offers_check; compute_true. Qed.
